(** * ColourProofs: which boards can be coloured with two colours. *)

From Verif Require Import Machine Store Axes Shapes Lattice SquareGraph Spec SpecSquare Kruskal Spec8
  Basics AxisProofs GeoProofs ShapeProofs SquareProofs SquareIter SquareMain SquareSearch.
From Coq Require Import ZifyBool ZifyNat.
Ltac Zify.zify_post_hook ::= Z.div_mod_to_equations.

Definition Coloured {A D} (G : Geometry A D) (col : Cell -> bool) : Prop :=
  forall c d c', In c (geo_nodes G) -> geo_step G c d = Some c' -> col c <> col c'.

Lemma parity : forall a b j, a = b + 2 * j + 1 -> Z.even a <> Z.even b.
Proof. intros a b j ->. rewrite !Z.even_add, Z.even_mul. destruct (Z.even b); discriminate. Qed.

Lemma triangle : forall A D (G : Geometry A D) a b c d1 d2 d3,
  In a (geo_nodes G) -> In b (geo_nodes G) -> In c (geo_nodes G) ->
  geo_step G a d1 = Some b -> geo_step G b d2 = Some c -> geo_step G c d3 = Some a ->
  ~ exists col, Coloured G col.
Proof.
  intros A D G a b c d1 d2 d3 Ha Hb Hc S1 S2 S3 (col & HC).
  pose proof (HC a d1 b Ha S1). pose proof (HC b d2 c Hb S2). pose proof (HC c d3 a Hc S3).
  destruct (col a), (col b), (col c); congruence.
Qed.

(** A ring of [w] cells that returns to its start. *)
Lemma odd_ring : forall A D (G : Geometry A D) (cell : Z -> Cell) w d,
  0 < w -> (forall x, 0 <= x < w -> In (cell x) (geo_nodes G)) ->
  (forall x, 0 <= x < w - 1 -> geo_step G (cell x) d = Some (cell (x + 1))) ->
  geo_step G (cell (w - 1)) d = Some (cell 0) ->
  Z.even w = false -> ~ exists col, Coloured G col.
Proof.
  intros A D G cell w d Hw HI HS HE HO (col & HC).
  assert (K : forall x, 0 <= x -> x < w -> col (cell x) = xorb (Z.odd x) (col (cell 0))).
  { apply (natlike_ind (fun x => x < w -> col (cell x) = xorb (Z.odd x) (col (cell 0)))).
    - intros _. destruct (col (cell 0)); reflexivity.
    - intros x Hx IH Hl. specialize (IH ltac:(lia)).
      pose proof (HC (cell x) d (cell (x + 1)) ltac:(apply HI; lia) ltac:(apply HS; lia)) as Hn.
      unfold Z.succ. rewrite IH in Hn. rewrite Z.odd_add. change (Z.odd 1) with true.
      destruct (Z.odd x), (col (cell 0)), (col (cell (x + 1))); cbn in *; congruence. }
  pose proof (K (w - 1) ltac:(lia) ltac:(lia)) as K1.
  assert (Z.odd (w - 1) = false) as E1.
  { rewrite Z.odd_sub. rewrite <- Z.negb_even, HO. reflexivity. }
  rewrite E1 in K1. cbn in K1.
  apply (HC (cell (w - 1)) d (cell 0)); [apply HI; lia|exact HE|rewrite K1; destruct (col (cell 0)); reflexivity].
Qed.

Ltac on_place PL H :=
  let K := fresh "K" in
  pose proof (geo_step_place PL _ _ _ H) as K;
  pose proof (placed_in PL _ _ _ H) as ?HIN;
  rewrite same_place_iff in K.

Lemma square_col : forall A w h (ax : AxisGeo A DirectedSquareAxis), ag_vec ax = square_vec ->
  Coloured (square_geometry ax w h) (fun c => Z.even (fst c + snd c)).
Proof.
  intros A w h ax HV [x y] d [x' y'] Hc H. on_place (square_inj _ _ ax w h) H.
  cbn [fst snd] in K. destruct K as [[_ K]|[K _]]; [|lia].
  cbn [geo_ax square_geometry rect_geometry] in K. rewrite HV in K.
  unfold vadd in K. cbn [fst snd] in *. apply pair_inv in K.
  destruct d; cbn [square_vec fst snd] in K;
    first [apply (parity _ _ (-1)); lia | apply (parity _ _ 0); lia].
Qed.

(** Cells in a single row or column, by their place in it. *)
Lemma diagonal_col : forall A w h (ax : AxisGeo A DirectedSquareDiagonalAxis),
  ag_vec ax = diagonal_vec -> w <= 1 \/ h <= 1 ->
  Coloured (square_geometry ax w h) (fun c => Z.even (fst c + snd c)).
Proof.
  intros A w h ax HV HW [x y] d [x' y'] Hc H. on_place (square_inj _ _ ax w h) H.
  cbn [fst snd] in K. destruct K as [[_ K]|[K _]]; [|lia].
  cbn [geo_ax geo_nodes square_geometry rect_geometry] in K, Hc, HIN. rewrite HV in K.
  unfold vadd in K. cbn [fst snd] in *. apply pair_inv in K.
  apply in_board in Hc, HIN. destruct Hc as (a & b & Ha & Hb & Ec), HIN as (a' & b' & Ha' & Hb' & Ec').
  apply pair_inv in Ec, Ec'.
  destruct d; cbn [diagonal_vec fst snd] in K;
    first [exfalso; lia | apply (parity _ _ (-1)); lia | apply (parity _ _ 0); lia].
Qed.

Lemma diagonal_tri : forall A w h (ax : AxisGeo A DirectedSquareDiagonalAxis),
  ag_vec ax = diagonal_vec -> 1 < w -> 1 < h ->
  ~ exists col, Coloured (square_geometry ax w h) col.
Proof.
  intros A w h ax HV Hw Hh.
  assert (HI : forall x y, 0 <= x < w -> 0 <= y < h -> In (x, y) (geo_nodes (square_geometry ax w h))).
  { intros x y Hx Hy. apply in_board. exists x, y. auto. }
  apply (triangle _ _ _ (0, 0) (1, 0) (0, 1) DE DNW DS);
    try (apply HI; lia); apply (geo_step_some (square_inj _ _ ax w h)); try (apply HI; lia);
    cbn [geo_ax square_geometry rect_geometry]; rewrite HV; reflexivity.
Qed.

Section Offset.
  Context {A : Type} (ax : AxisGeo A AxisDR) (HV : ag_vec ax = hexr_vec) (b : HexR) (w h : Z).

  Notation bcol := (fun c : Cell => if w <=? 1 then Z.even (snd c) else Z.even (fst c)).

  Lemma offset_col : w <= 1 \/ h <= 1 -> Coloured (offset_r_geometry ax b w h) bcol.
  Proof using HV.
    intros HW [x y] d [x' y'] Hc H. on_place (offset_r_inj _ ax b w h) H.
    cbn [fst snd] in K. destruct K as [[_ K]|[K _]]; [|lia].
    cbn [geo_ax geo_nodes offset_r_geometry rect_geometry] in K, Hc, HIN. rewrite HV in K.
    apply in_board in Hc, HIN.
    destruct Hc as (a & e & Ha & Hb & Ec), HIN as (a' & e' & Ha' & Hb' & Ec').
    apply pair_inv in Ec, Ec'. destruct Ec as [<- <-], Ec' as [<- <-].
    unfold vadd, offset_r_pos in K. cbn [fst snd] in *.
    destruct (Z.leb_spec w 1); destruct b, d; cbn [hexr_vec fst snd] in K; apply pair_inv in K;
      first [exfalso; lia | apply (parity _ _ (-1)); lia | apply (parity _ _ 0); lia].
  Qed.

  Lemma offset_tri : 1 < w -> 1 < h -> ~ exists col, Coloured (offset_r_geometry ax b w h) col.
  Proof using HV.
    intros Hw Hh.
    assert (HI : forall x y, 0 <= x < w -> 0 <= y < h ->
      In (x, y) (geo_nodes (offset_r_geometry ax b w h))).
    { intros x y Hx Hy. apply in_board. exists x, y. auto. }
    destruct b.
    - apply (triangle _ _ _ (0, 0) (1, 0) (0, 1) RE RNW RSW);
        try (apply HI; lia); apply (geo_step_some (offset_r_inj _ ax OddR w h)); try (apply HI; lia);
        cbn [geo_ax offset_r_geometry rect_geometry]; rewrite HV; reflexivity.
    - apply (triangle _ _ _ (0, 0) (1, 0) (1, 1) RE RNW RSW);
        try (apply HI; lia); apply (geo_step_some (offset_r_inj _ ax EvenR w h)); try (apply HI; lia);
        cbn [geo_ax offset_r_geometry rect_geometry]; rewrite HV; reflexivity.
  Qed.

  Lemma offset_loop_col : Z.even w = true -> h <= 1 ->
    Coloured (offset_r_loop_geometry ax b w h) (fun c => Z.even (fst c)).
  Proof using HV.
    intros HW Hh [x y] d [x' y'] Hc H. on_place (offset_r_loop_inj _ ax b w h) H.
    apply Z.even_spec in HW. destruct HW as (j & HW).
    cbn [geo_ax geo_nodes offset_r_loop_geometry rect_geometry] in K, Hc, HIN. rewrite HV in K.
    apply in_board in Hc, HIN.
    destruct Hc as (a & e & Ha & Hb & Ec), HIN as (a' & e' & Ha' & Hb' & Ec').
    apply pair_inv in Ec, Ec'. destruct Ec as [<- <-], Ec' as [<- <-].
    assert (y = 0) as -> by lia. assert (y' = 0) as -> by lia.
    cbn [fst snd] in K. destruct K as [[K _]|(_ & k & K1 & K2)]; [lia|].
    unfold vadd, offset_r_pos in K1, K2. cbn [fst snd] in *.
    assert (Hk : exists z, k * (2 * w) = 4 * z) by (exists (k * j); rewrite HW; ring).
    destruct Hk as (z & Hz). rewrite Hz in K1.
    destruct b, d; cbn [hexr_vec fst snd] in K1, K2; try (exfalso; lia);
      first [apply (parity _ _ z); lia | apply (parity _ _ (z - 1)); lia].
  Qed.

  Lemma offset_loop_tri : 0 < w -> 0 < h -> Z.even w = false \/ 1 < h ->
    ~ exists col, Coloured (offset_r_loop_geometry ax b w h) col.
  Proof using HV.
    intros Hw Hh HX.
    assert (HI : forall x y, 0 <= x < w -> 0 <= y < h ->
      In (x, y) (geo_nodes (offset_r_loop_geometry ax b w h))).
    { intros x y Hx Hy. apply in_board. exists x, y. auto. }
    destruct (Z.even w) eqn:EW.
    - assert (w <> 1) by (intros ->; discriminate). destruct HX as [HX|HX]; [discriminate|].
      destruct b.
      + apply (triangle _ _ _ (0, 0) (1, 0) (0, 1) RE RNW RSW);
          try (apply HI; lia); apply (geo_step_some (offset_r_loop_inj _ ax OddR w h));
          try (apply HI; lia); cbn [geo_ax offset_r_loop_geometry rect_geometry]; rewrite HV;
          apply same_place_refl.
      + apply (triangle _ _ _ (0, 0) (1, 0) (1, 1) RE RNW RSW);
          try (apply HI; lia); apply (geo_step_some (offset_r_loop_inj _ ax EvenR w h));
          try (apply HI; lia); cbn [geo_ax offset_r_loop_geometry rect_geometry]; rewrite HV;
          apply same_place_refl.
    - apply (odd_ring _ _ _ (fun x => (x, 0)) w RE); auto.
      + intros x Hx. apply HI; lia.
      + intros x Hx. apply (geo_step_some (offset_r_loop_inj _ ax b w h)); [apply HI; lia|].
        cbn [geo_ax offset_r_loop_geometry rect_geometry]. rewrite HV.
        apply same_place_iff. right. split; [cbn [fst]; lia|]. exists 0.
        unfold vadd, offset_r_pos. destruct b; cbn [hexr_vec fst snd]; lia.
      + apply (geo_step_some (offset_r_loop_inj _ ax b w h)); [apply HI; lia|].
        cbn [geo_ax offset_r_loop_geometry rect_geometry]. rewrite HV.
        apply same_place_iff. right. split; [cbn [fst]; lia|]. exists 1.
        unfold vadd, offset_r_pos. destruct b; cbn [hexr_vec fst snd]; lia.
  Qed.
End Offset.

Section AxialR.
  Context {A : Type} (ax : AxisGeo A AxisDR) (HV : ag_vec ax = hexr_vec) (k : AxialKind) (b : HexR) (w h : Z).

  Lemma axial_r_col : w <= 1 \/ h <= 1 -> Coloured (axial_r_geometry ax k b w h)
    (fun c : Cell => if w <=? 1 then Z.even (snd c) else Z.even (fst c)).
  Proof using HV.
    intros HW [x y] d [x' y'] Hc H. on_place (axial_r_inj _ ax k b w h) H.
    cbn [fst snd] in K. destruct K as [[_ K]|[K _]]; [|lia].
    cbn [geo_ax geo_nodes axial_r_geometry axial_geometry] in K, Hc, HIN. rewrite HV in K.
    apply in_board in Hc, HIN.
    destruct Hc as (a & e & Ha & Hb & Ec), HIN as (a' & e' & Ha' & Hb' & Ec').
    apply pair_inv in Ec, Ec'. unfold vadd, axial_r_pos in K. cbn [fst snd] in *.
    assert (HX : co_r b = 0 \/ co_r b = 1) by (destruct b; auto).
    destruct (Z.leb_spec w 1); destruct d; cbn [hexr_vec fst snd] in K; apply pair_inv in K;
      first [exfalso; lia | apply (parity _ _ (-1)); lia | apply (parity _ _ 0); lia].
  Qed.

  Lemma in_axial_r : forall x y r q, 0 <= x < w -> 0 <= y < h -> r = x - (y + co_r b) / 2 -> q = y ->
    In (r, q) (board w h (axial_cell (co_r b))).
  Proof. clear. intros x y r q Hx Hy -> ->. apply in_board. exists x, y. auto. Qed.

  Lemma axial_r_tri : 1 < w -> 1 < h -> ~ exists col, Coloured (axial_r_geometry ax k b w h) col.
  Proof using HV.
    intros Hw Hh.
    assert (I1 : In (0, 0) (geo_nodes (axial_r_geometry ax k b w h)))
      by (apply (in_axial_r 0 0); destruct b; auto; lia).
    assert (I2 : In (1, 0) (geo_nodes (axial_r_geometry ax k b w h)))
      by (apply (in_axial_r 1 0); destruct b; auto; lia).
    assert (I3 : In (0, 1) (geo_nodes (axial_r_geometry ax k b w h)))
      by (apply (in_axial_r (co_r b) 1); destruct b; auto; cbn; lia).
    apply (triangle _ _ _ (0, 0) (1, 0) (0, 1) RE RNW RSW); auto;
      apply (geo_step_some (axial_r_inj _ ax k b w h)); auto;
      cbn [geo_ax axial_r_geometry axial_geometry]; rewrite HV; reflexivity.
  Qed.

  Lemma axial_r_loop_col : Z.even w = true -> h <= 1 ->
    Coloured (axial_r_loop_geometry ax k b w h) (fun c => Z.even (fst c)).
  Proof using HV.
    intros HW Hh [x y] d [x' y'] Hc H. on_place (axial_r_loop_inj _ ax k b w h) H.
    apply Z.even_spec in HW. destruct HW as (j & HW).
    cbn [geo_ax geo_nodes axial_r_loop_geometry axial_geometry] in K, Hc, HIN. rewrite HV in K.
    apply in_board in Hc, HIN.
    destruct Hc as (a & e & Ha & Hb & Ec), HIN as (a' & e' & Ha' & Hb' & Ec').
    apply pair_inv in Ec, Ec'. assert (y = 0) as -> by lia. assert (y' = 0) as -> by lia.
    cbn [fst snd] in K. destruct K as [[K _]|(_ & n & K1 & K2)]; [lia|].
    unfold vadd, axial_r_pos in K1, K2. cbn [fst snd] in *.
    assert (Hn : exists z, n * w = 2 * z) by (exists (n * j); rewrite HW; ring).
    destruct Hn as (z & Hz). replace (n * (2 * w)) with (2 * (n * w)) in * by ring.
    rewrite Hz in K1, K2 || rewrite Hz in K1.
    destruct d; cbn [hexr_vec fst snd] in K1, K2; try (exfalso; lia);
      first [apply (parity _ _ z); lia | apply (parity _ _ (z - 1)); lia].
  Qed.

  Lemma axial_r_loop_tri : 0 < w -> 0 < h -> Z.even w = false \/ 1 < h ->
    ~ exists col, Coloured (axial_r_loop_geometry ax k b w h) col.
  Proof using HV.
    intros Hw Hh HX.
    destruct (Z.even w) eqn:EW.
    - assert (w <> 1) by (intros ->; discriminate). destruct HX as [HX|HX]; [discriminate|].
      assert (I1 : In (0, 0) (geo_nodes (axial_r_loop_geometry ax k b w h)))
        by (apply (in_axial_r 0 0); destruct b; auto; lia).
      assert (I2 : In (1, 0) (geo_nodes (axial_r_loop_geometry ax k b w h)))
        by (apply (in_axial_r 1 0); destruct b; auto; lia).
      assert (I3 : In (0, 1) (geo_nodes (axial_r_loop_geometry ax k b w h)))
        by (apply (in_axial_r (co_r b) 1); destruct b; auto; cbn; lia).
      apply (triangle _ _ _ (0, 0) (1, 0) (0, 1) RE RNW RSW); auto;
        apply (geo_step_some (axial_r_loop_inj _ ax k b w h)); auto;
        cbn [geo_ax axial_r_loop_geometry axial_geometry]; rewrite HV; apply same_place_refl.
    - assert (HI : forall x, 0 <= x < w -> In (x, 0) (geo_nodes (axial_r_loop_geometry ax k b w h))).
      { intros x Hx. apply (in_axial_r x 0); auto; [lia|]. destruct b; cbn; lia. }
      apply (odd_ring _ _ _ (fun x => (x, 0)) w RE); auto.
      + intros x Hx. apply (geo_step_some (axial_r_loop_inj _ ax k b w h)); [apply HI; lia|].
        cbn [geo_ax axial_r_loop_geometry axial_geometry]. rewrite HV.
        apply same_place_iff. right. split; [cbn [fst]; lia|]. exists 0.
        unfold vadd, axial_r_pos. cbn [hexr_vec fst snd]. lia.
      + apply (geo_step_some (axial_r_loop_inj _ ax k b w h)); [apply HI; lia|].
        cbn [geo_ax axial_r_loop_geometry axial_geometry]. rewrite HV.
        apply same_place_iff. right. split; [cbn [fst]; lia|]. exists 1.
        unfold vadd, axial_r_pos. cbn [hexr_vec fst snd]. lia.
  Qed.
End AxialR.

Section AxialQ.
  Context {A : Type} (ax : AxisGeo A AxisDQ) (HV : ag_vec ax = hexq_vec) (k : AxialKind) (b : HexQ) (w h : Z).

  Lemma axial_q_col : w <= 1 \/ h <= 1 -> Coloured (axial_q_geometry ax k b w h)
    (fun c : Cell => if w <=? 1 then Z.even (snd c) else Z.even (fst c)).
  Proof using HV.
    intros HW [x y] d [x' y'] Hc H. on_place (axial_q_inj _ ax k b w h) H.
    cbn [fst snd] in K. destruct K as [[_ K]|[K _]]; [|lia].
    cbn [geo_ax geo_nodes axial_q_geometry axial_geometry] in K, Hc, HIN. rewrite HV in K.
    apply in_board in Hc, HIN.
    destruct Hc as (a & e & Ha & Hb & Ec), HIN as (a' & e' & Ha' & Hb' & Ec').
    apply pair_inv in Ec, Ec'. unfold vadd, axial_q_pos in K. cbn [fst snd] in *.
    assert (HX : co_q b = 0 \/ co_q b = 1) by (destruct b; auto).
    destruct (Z.leb_spec w 1); destruct d; cbn [hexq_vec fst snd] in K; apply pair_inv in K;
      first [exfalso; lia | apply (parity _ _ (-1)); lia | apply (parity _ _ 0); lia].
  Qed.

  Lemma in_axial_q : forall x y r q, 0 <= x < w -> 0 <= y < h -> r = x - (y + co_q b) / 2 -> q = y ->
    In (r, q) (board w h (axial_cell (co_q b))).
  Proof. clear. intros x y r q Hx Hy -> ->. apply in_board. exists x, y. auto. Qed.

  Lemma axial_q_tri : 1 < w -> 1 < h -> ~ exists col, Coloured (axial_q_geometry ax k b w h) col.
  Proof using HV.
    intros Hw Hh.
    assert (I1 : In (0, 0) (geo_nodes (axial_q_geometry ax k b w h)))
      by (apply (in_axial_q 0 0); destruct b; auto; lia).
    assert (I2 : In (1, 0) (geo_nodes (axial_q_geometry ax k b w h)))
      by (apply (in_axial_q 1 0); destruct b; auto; lia).
    assert (I3 : In (0, 1) (geo_nodes (axial_q_geometry ax k b w h)))
      by (apply (in_axial_q (co_q b) 1); destruct b; auto; cbn; lia).
    apply (triangle _ _ _ (0, 0) (1, 0) (0, 1) QNE QNW QS); auto;
      apply (geo_step_some (axial_q_inj _ ax k b w h)); auto;
      cbn [geo_ax axial_q_geometry axial_geometry]; rewrite HV; reflexivity.
  Qed.

  Lemma axial_q_loop_col : Z.even w = true -> h <= 1 ->
    Coloured (axial_q_loop_geometry ax k b w h) (fun c => Z.even (fst c)).
  Proof using HV.
    intros HW Hh [x y] d [x' y'] Hc H. on_place (axial_q_loop_inj _ ax k b w h) H.
    apply Z.even_spec in HW. destruct HW as (j & HW).
    cbn [geo_ax geo_nodes axial_q_loop_geometry axial_geometry] in K, Hc, HIN. rewrite HV in K.
    apply in_board in Hc, HIN.
    destruct Hc as (a & e & Ha & Hb & Ec), HIN as (a' & e' & Ha' & Hb' & Ec').
    apply pair_inv in Ec, Ec'. assert (y = 0) as -> by lia. assert (y' = 0) as -> by lia.
    cbn [fst snd] in K. destruct K as [[K _]|(_ & n & K1 & K2)]; [lia|].
    unfold vadd, axial_q_pos in K1, K2. cbn [fst snd] in *.
    assert (Hn : exists z, n * w = 2 * z) by (exists (n * j); rewrite HW; ring).
    destruct Hn as (z & Hz). replace (n * (2 * w)) with (2 * (n * w)) in * by ring.
    rewrite Hz in K1, K2 || rewrite Hz in K1.
    destruct d; cbn [hexq_vec fst snd] in K1, K2; try (exfalso; lia);
      first [apply (parity _ _ z); lia | apply (parity _ _ (z - 1)); lia].
  Qed.

  Lemma axial_q_loop_tri : 0 < w -> 0 < h -> Z.even w = false \/ 1 < h ->
    ~ exists col, Coloured (axial_q_loop_geometry ax k b w h) col.
  Proof using HV.
    intros Hw Hh HX.
    destruct (Z.even w) eqn:EW.
    - assert (w <> 1) by (intros ->; discriminate). destruct HX as [HX|HX]; [discriminate|].
      assert (I1 : In (0, 0) (geo_nodes (axial_q_loop_geometry ax k b w h)))
        by (apply (in_axial_q 0 0); destruct b; auto; lia).
      assert (I2 : In (1, 0) (geo_nodes (axial_q_loop_geometry ax k b w h)))
        by (apply (in_axial_q 1 0); destruct b; auto; lia).
      assert (I3 : In (0, 1) (geo_nodes (axial_q_loop_geometry ax k b w h)))
        by (apply (in_axial_q (co_q b) 1); destruct b; auto; cbn; lia).
      apply (triangle _ _ _ (0, 0) (1, 0) (0, 1) QNE QNW QS); auto;
        apply (geo_step_some (axial_q_loop_inj _ ax k b w h)); auto;
        cbn [geo_ax axial_q_loop_geometry axial_geometry]; rewrite HV; apply same_place_refl.
    - assert (HI : forall x, 0 <= x < w -> In (x, 0) (geo_nodes (axial_q_loop_geometry ax k b w h))).
      { intros x Hx. apply (in_axial_q x 0); auto; [lia|]. destruct b; cbn; lia. }
      apply (odd_ring _ _ _ (fun x => (x, 0)) w QNE); auto.
      + intros x Hx. apply (geo_step_some (axial_q_loop_inj _ ax k b w h)); [apply HI; lia|].
        cbn [geo_ax axial_q_loop_geometry axial_geometry]. rewrite HV.
        apply same_place_iff. right. split; [cbn [fst]; lia|]. exists 0.
        unfold vadd, axial_q_pos. cbn [hexq_vec fst snd]. lia.
      + apply (geo_step_some (axial_q_loop_inj _ ax k b w h)); [apply HI; lia|].
        cbn [geo_ax axial_q_loop_geometry axial_geometry]. rewrite HV.
        apply same_place_iff. right. split; [cbn [fst]; lia|]. exists 1.
        unfold vadd, axial_q_pos. cbn [hexq_vec fst snd]. lia.
  Qed.
End AxialQ.

Lemma decide : forall (P : Prop) (b : bool), (b = true -> P) -> (b = false -> ~ P) -> (P <-> b = true).
Proof. intros P [] H1 H2; split; auto. intros HP. exfalso. apply H2; auto. Qed.

Lemma chequered_ok : forall A D (s : Shape Cell A D) G, Supported s G ->
  forall b, Chequered s G b -> geo_nodes G <> [] ->
  ((exists col, Coloured G col) <-> b = true).
Proof.
  intros A D s G _ x HC HN. destruct HC.
  all: assert (HWH : 0 < w /\ 0 < h) by
    (cbn [geo_nodes square_geometry offset_r_geometry offset_r_loop_geometry rect_geometry
          axial_r_geometry axial_q_geometry axial_r_loop_geometry axial_q_loop_geometry
          axial_geometry] in HN;
     match type of HN with ?l <> [] => destruct l eqn:El; [congruence|] end;
     match type of El with _ = ?c :: _ => assert (HI : In c (c :: l)) by (left; auto) end;
     rewrite <- El in HI; apply in_board in HI; destruct HI as (? & ? & ? & ? & _); lia).
  all: apply decide; intros HB; try discriminate.
  all: try (eexists; first
    [ apply square_col; reflexivity
    | apply diagonal_col; [reflexivity|lia]
    | apply offset_col; [reflexivity|lia]
    | apply axial_r_col; [reflexivity|lia]
    | apply axial_q_col; [reflexivity|lia]
    | apply offset_loop_col; [reflexivity| |]; apply andb_prop in HB; destruct HB; auto; lia
    | apply axial_r_loop_col; [reflexivity| |]; apply andb_prop in HB; destruct HB; auto; lia
    | apply axial_q_loop_col; [reflexivity| |]; apply andb_prop in HB; destruct HB; auto; lia]).
  all: first
    [ apply diagonal_tri; [reflexivity| |]; lia
    | apply offset_tri; [reflexivity| |]; lia
    | apply axial_r_tri; [reflexivity| |]; lia
    | apply axial_q_tri; [reflexivity| |]; lia
    | apply offset_loop_tri; [reflexivity| | |]; destruct (Z.even w) eqn:?; cbn in HB; auto; lia
    | apply axial_r_loop_tri; [reflexivity| | |]; destruct (Z.even w) eqn:?; cbn in HB; auto; lia
    | apply axial_q_loop_tri; [reflexivity| | |]; destruct (Z.even w) eqn:?; cbn in HB; auto; lia].
Qed.

Lemma chequered_every : forall A D (s : Shape Cell A D) G, Supported s G ->
  exists b, Chequered s G b.
Proof. intros A D s G H. destruct H; eexists; constructor. Qed.

(** ** [SquareGraph] *)

Lemma sq_chequered_ok : forall S h v, 0 < h -> 0 < v ->
  ((exists col : NodeIndex -> bool, forall a d t, on_board h v a -> sq_neighbour S h v a d = Some t ->
     col a <> col t) <-> sq_chequered S h v = true).
Proof.
  intros S h v Hh Hv. unfold sq_chequered. split.
  - intros (col & HC).
    assert (KH : forall x, 0 <= x -> x < h -> col (x, 0) = xorb (Z.odd x) (col (0, 0))).
    { apply (natlike_ind (fun x => x < h -> col (x, 0) = xorb (Z.odd x) (col (0, 0)))).
      - intros _. destruct (col (0, 0)); reflexivity.
      - intros x Hx IH Hl. specialize (IH ltac:(lia)).
        assert (col (x, 0) <> col (x + 1, 0)) as Hn.
        { apply (HC _ (Foward Horizontal)); [split; cbn; lia|]. rewrite sq_neighbour_fwd_h by lia.
          replace (x + 1 <? h) with true by lia. reflexivity. }
        unfold Z.succ. rewrite IH in Hn. rewrite Z.odd_add. change (Z.odd 1) with true.
        destruct (Z.odd x), (col (0, 0)), (col (x + 1, 0)); cbn in *; congruence. }
    assert (KV : forall y, 0 <= y -> y < v -> col (0, y) = xorb (Z.odd y) (col (0, 0))).
    { apply (natlike_ind (fun y => y < v -> col (0, y) = xorb (Z.odd y) (col (0, 0)))).
      - intros _. destruct (col (0, 0)); reflexivity.
      - intros y Hy IH Hl. specialize (IH ltac:(lia)).
        assert (col (0, y) <> col (0, y + 1)) as Hn.
        { apply (HC _ (Foward Vertical)); [split; cbn; lia|]. rewrite sq_neighbour_fwd_v by lia.
          replace (y + 1 <? v) with true by lia. reflexivity. }
        unfold Z.succ. rewrite IH in Hn. rewrite Z.odd_add. change (Z.odd 1) with true.
        destruct (Z.odd y), (col (0, 0)), (col (0, y + 1)); cbn in *; congruence. }
    apply andb_true_iff. split.
    + destruct (loops_h S) eqn:EL; auto. cbn. destruct (Z.even h) eqn:EE; auto. exfalso.
      apply (HC (h - 1, 0) (Foward Horizontal) (0, 0)); [split; cbn; lia| |].
      * rewrite sq_neighbour_fwd_h by lia. replace (h - 1 + 1 <? h) with false by lia.
        rewrite EL. reflexivity.
      * rewrite KH by lia. rewrite Z.odd_sub, <- Z.negb_even, EE. destruct (col (0, 0)); reflexivity.
    + destruct (loops_v S) eqn:EL; auto. cbn. destruct (Z.even v) eqn:EE; auto. exfalso.
      apply (HC (0, v - 1) (Foward Vertical) (0, 0)); [split; cbn; lia| |].
      * rewrite sq_neighbour_fwd_v by lia. replace (v - 1 + 1 <? v) with false by lia.
        rewrite EL. reflexivity.
      * rewrite KV by lia. rewrite Z.odd_sub, <- Z.negb_even, EE. destruct (col (0, 0)); reflexivity.
  - intros HX. apply andb_true_iff in HX. destruct HX as [HX HY].
    exists (fun c => Z.even (fst c + snd c)). intros [x y] d t [Hx Hy] H. cbn [fst snd] in *.
    assert (HX' : loops_h S = true -> exists j, h = 2 * j).
    { intros EL. rewrite EL in HX. apply Z.even_spec in HX. destruct HX as (j & HX). exists j. auto. }
    assert (HY' : loops_v S = true -> exists j, v = 2 * j).
    { intros EL. rewrite EL in HY. apply Z.even_spec in HY. destruct HY as (j & HY). exists j. auto. }
    destruct d as [[]|[]];
      rewrite ?sq_neighbour_fwd_h, ?sq_neighbour_fwd_v, ?sq_neighbour_bwd_h, ?sq_neighbour_bwd_v
        in H by auto.
    + destruct (Z.ltb_spec (x + 1) h); [injection H as <-; apply (parity _ _ (-1)); cbn; lia|].
      destruct (loops_h S); [|discriminate]. destruct HX' as (j & Hj); auto.
      injection H as <-. apply (parity _ _ (j - 1)). cbn [fst snd]. lia.
    + destruct (Z.ltb_spec (y + 1) v); [injection H as <-; apply (parity _ _ (-1)); cbn; lia|].
      destruct (loops_v S); [|discriminate]. destruct HY' as (j & Hj); auto.
      injection H as <-. apply (parity _ _ (j - 1)). cbn [fst snd]. lia.
    + destruct (Z.eqb_spec x 0); [|injection H as <-; apply (parity _ _ 0); cbn; lia].
      destruct (loops_h S); [|discriminate]. destruct HX' as (j & Hj); auto.
      injection H as <-. apply (parity _ _ (- j)). cbn [fst snd]. lia.
    + destruct (Z.eqb_spec y 0); [|injection H as <-; apply (parity _ _ 0); cbn; lia].
      destruct (loops_v S); [|discriminate]. destruct HY' as (j & Hj); auto.
      injection H as <-. apply (parity _ _ (- j)). cbn [fst snd]. lia.
Qed.
