(** * StoreProofs: every shape of the crate stores its board. *)

From Verif Require Import Machine Store Axes Shapes Spec Basics AxisProofs GeoProofs ShapeProofs.
From Coq Require Import ZifyBool ZifyNat.
Ltac Zify.zify_post_hook ::= Z.div_mod_to_equations.

(** Both build modes answer the same. *)
Definition both_modes {A} (f : mode -> outcome A) : Prop :=
  exists o, forall m, f m = Ok o.

Lemma both_modes_code : forall A D (ax : AxisGeo A D) (s : Shape Cell A D) nodes co ex m c d,
  both_modes (fun m => sh_move_coord s m c d) ->
  sh_move_coord s m c d = Ok (geo_step (code_geometry ax s nodes co ex) c d).
Proof.
  intros A D ax s nodes co ex m c d (o & H). unfold code_geometry. cbn [geo_step].
  rewrite !H. reflexivity.
Qed.

Lemma offset_move_q_modes : forall w h flag c d, fits w h ->
  In c (board w h (fun x y => (x, y))) ->
  both_modes (fun m => offset_move_q w h flag m c d).
Proof.
  intros w h flag [x y] d F Hin. apply in_rect in Hin. apply fits_bounds in F.
  rewrite IMAX1_val in F.
  enough (H : exists o, offset_move_q w h flag Debug (x, y) d = Ok o /\
                        offset_move_q w h flag Release (x, y) d = Ok o).
  { destruct H as (o & H1 & H2). exists o. intros []; auto. }
  unfold offset_move_q, parity_is.
  cbn [snd]; destruct (negb (y mod 2 =? flag)) eqn:P; destruct d; moves; eexists; split; reflexivity.
Qed.

Lemma offset_move_q_lew_modes : forall w h flag c d, fits w h ->
  In c (board w h (fun x y => (x, y))) ->
  both_modes (fun m => offset_move_q_lew w h flag m c d).
Proof.
  intros w h flag [x y] d F Hin. apply in_rect in Hin. apply fits_bounds in F.
  rewrite IMAX1_val in F.
  enough (H : exists o, offset_move_q_lew w h flag Debug (x, y) d = Ok o /\
                        offset_move_q_lew w h flag Release (x, y) d = Ok o).
  { destruct H as (o & H1 & H2). exists o. intros []; auto. }
  unfold offset_move_q_lew, parity_is.
  cbn [snd]; destruct (negb (y mod 2 =? flag)) eqn:P; destruct d; moves; eexists; split; reflexivity.
Qed.

Lemma in_double : forall w h x y, In (x, y) (board w h double_cell) <->
  0 <= x / 2 < w /\ 0 <= y < h /\ x mod 2 = y mod 2.
Proof.
  intros. rewrite in_board. unfold double_cell. split.
  - intros (a & b & Ha & Hb & H). apply pair_inv in H. destruct H as [-> ->]. lia.
  - intros (Hx & Hy & Hp). exists (x / 2), y. repeat split; try lia. apply pair_eq; lia.
Qed.

Lemma double_move_modes : forall w h c d, fits w h -> In c (board w h double_cell) ->
  both_modes (fun m => double_move_r w h m c d).
Proof.
  intros w h [x y] d F Hin. apply in_double in Hin. apply fits_bounds in F.
  rewrite IMAX1_val in F.
  enough (H : exists o, double_move_r w h Debug (x, y) d = Ok o /\
                        double_move_r w h Release (x, y) d = Ok o).
  { destruct H as (o & H1 & H2). exists o. intros []; auto. }
  unfold double_move_r.
  destruct d; unfold checked_sub; usimp; split_ifs; usimp; split_ifs; usimp; split_ifs;
    eexists; split; reflexivity.
Qed.

(** ** Axial loop on any number of rows *)

Lemma wrap_up_min : forall m w min r, 0 <= w < IMAX1 -> r < min -> min <= r + w ->
  - IMAX1 <= r + w < IMAX1 -> wrap_up m w min r = Ok (r + w).
Proof.
  intros m w min r Hw Hr H Hb. unfold wrap_up. apply loop_rounds with (n := 0%nat); [|lia].
  apply R_done. rewrite isize_add_ok by auto. cbn [bind].
  replace (r + w <? min) with false by lia. reflexivity.
Qed.

(** Moves to row [q]: what lies left of the row is wrapped; on the right only r >= w + shift
    is, although the row ends at r = w - shift. *)
Lemma axial_lew_any : forall D k mv co w h m (c : Z * Z) (d : D) r q,
  0 <= co <= 1 -> fits w h -> axial_fits k co w h ->
  mv m c d = Ok (r, q) -> -1 <= q <= h -> 0 < w ->
  (0 <= q < h -> -1 <= r + half_row co q <= w) ->
  axial_move_coord_lew k mv co w h m c d =
    Ok (if (0 <=? q) && (q <? h)
        then Some (if r + half_row co q <? 0 then r + w
                   else if w + half_row co q <=? r then r - w else r, q)
        else None).
Proof.
  intros D k mv co w h m c d r q Hco F Hf Hmv Hq Hw Hr.
  apply fits_bounds in F. rewrite IMAX1_val in F.
  unfold axial_move_coord_lew. rewrite Hmv. cbn [bind fst snd].
  destruct (0 <=? q) eqn:E1.
  - rewrite as_usize_nonneg by (rewrite USIZE_val; lia).
    rewrite Z.leb_antisym. destruct (q <? h) eqn:E2; cbn [negb andb]; [|reflexivity].
    specialize (Hr ltac:(lia)). unfold half_row in *.
    assert (Hrow : h + w < 2 ^ 63 + 1) by nia.
    rewrite isize_add_ok by (rewrite IMAX1_val; lia). cbn [bind].
    unfold isize_half. rewrite Z.quot_div_nonneg by lia.
    unfold isize_neg. rewrite wrap_isize_ok by (rewrite IMAX1_val; lia). cbn [bind].
    rewrite as_isize_small by (rewrite IMAX1_val; lia).
    destruct (r + (q + co) / 2 <? 0) eqn:E3.
    + replace (r <? - ((q + co) / 2)) with true by lia.
      rewrite wrap_up_min by (rewrite ?IMAX1_val; lia). cbn [bind].
      rewrite ha_new_ok; [reflexivity|].
      destruct k; unfold rep, axial_fits in *; auto. lia.
    + replace (r <? - ((q + co) / 2)) with false by lia.
      rewrite isize_sub_ok by (rewrite IMAX1_val; lia). cbn [bind]. rewrite Z.sub_opp_r.
      destruct (w + (q + co) / 2 <=? r) eqn:E4.
      * rewrite wrap_down_one by (rewrite ?IMAX1_val; lia). cbn [bind].
        rewrite ha_new_ok; [reflexivity|].
        destruct k; unfold rep, axial_fits in *; auto. lia.
      * rewrite wrap_down_zero by lia. cbn [bind].
        rewrite ha_new_ok; [reflexivity|].
        destruct k; unfold rep, axial_fits in *; auto. lia.
  - rewrite as_usize_neg by (rewrite USIZE_val; lia).
    replace (h <=? q + USIZE) with true by (rewrite USIZE_val; lia). reflexivity.
Qed.

Lemma axial_r_lew_modes : forall k b w h c d, fits w h -> axial_fits k (co_r b) w h ->
  In c (board w h (axial_cell (co_r b))) ->
  both_modes (fun m => axial_move_coord_lew k (axial_move_r k) (co_r b) w h m c d).
Proof.
  intros k b w h [r q] d F Hf Hin. pose proof (co_r_range b) as Hco.
  pose proof (fun m => axial_move_r_ok k (co_r b) w h m r q d Hco F Hf Hin) as Hm.
  apply in_axial in Hin. unfold half_row in Hin. unfold both_modes.
  destruct d; eexists; intros m;
    (rewrite (axial_lew_any _ k _ (co_r b) w h m _ _ _ _ Hco F Hf (Hm m))
       by (unfold half_row; lia)); reflexivity.
Qed.

Lemma axial_q_lew_modes : forall k b w h c d, fits w h -> axial_fits k (co_q b) w h ->
  In c (board w h (axial_cell (co_q b))) ->
  both_modes (fun m => axial_move_coord_lew k (axial_move_q k) (co_q b) w h m c d).
Proof.
  intros k b w h [r q] d F Hf Hin. pose proof (co_q_range b) as Hco.
  pose proof (fun m => axial_move_q_ok k (co_q b) w h m r q d Hco F Hf Hin) as Hm.
  apply in_axial in Hin. unfold half_row in Hin. unfold both_modes.
  destruct d; eexists; intros m;
    (rewrite (axial_lew_any _ k _ (co_q b) w h m _ _ _ _ Hco F Hf (Hm m))
       by (unfold half_row; lia)); reflexivity.
Qed.

(** ** All shapes *)

Lemma double_refines : forall w h m, fits w h ->
  Refines m (double_shape w h) (double_code_geometry w h) double_cell.
Proof.
  intros w h m F. pose proof (fits_bounds _ _ F) as B. rewrite IMAX1_val in B.
  assert (Hmv : forall c d, In c (board w h double_cell) ->
    double_move_r w h m c d = Ok (geo_step (double_code_geometry w h) c d)).
  { intros c d Hc. apply (both_modes_code _ _ hexr_axes (double_shape w h)).
    apply double_move_modes; auto. }
  constructor; cbn [sh_axis sh_horizontal sh_vertical double_shape double_code_geometry
    code_geometry geo_ax geo_nodes geo_coord geo_extreme sh_eqb sh_offset_to_coordinate
    sh_to_offset sh_to_offset_unchecked sh_move_coord sh_move_coord_unchecked]; auto.
  - apply hexr_axis_ok.
  - apply pair_eqb_eq.
  - intros x y Hx Hy. unfold double_offset_to_coordinate, double_cell. cbn [fst snd].
    rewrite usize_mul_ok by (rewrite USIZE_val; lia). cbn [bind].
    rewrite usize_add_ok by (rewrite USIZE_val; lia). cbn [bind]. rewrite Z.mul_comm. reflexivity.
  - intros x y Hx Hy. unfold double_to_offset, double_cell. cbn [fst snd].
    replace ((2 * x + y mod 2) / 2) with x by lia.
    replace ((x <? w) && (y <? h)) with true by lia. reflexivity.
  - intros x y Hx Hy. unfold double_cell. cbn [fst snd]. do 2 f_equal. lia.
  - intros c d c' Hc Hs. apply default_move_coord_unchecked_ok. rewrite Hmv by auto.
    f_equal. exact Hs.
  - intros [x y] Hin. apply in_double in Hin. cbn [fst snd]. lia.
  - intros [x y] Hc Hn _. rewrite in_double in Hn. cbn [fst snd] in *.
    unfold double_to_offset. cbn [fst snd].
    replace ((x / 2 <? w) && (y <? h)) with false by lia. reflexivity.
  - intros c _ [].
Qed.

Theorem stored_refines : forall A D (s : Shape Cell A D) G m,
  Stored s G -> exists cell, Refines m s G cell.
Proof.
  intros A D s G m H. destruct H.
  - apply supported_refines. auto.
  - exists (fun x y => (x, y)). eapply refines_rect; try eassumption; try reflexivity;
      [apply hexq_axis_ok | left; reflexivity |].
    intros c d Hc. apply both_modes_code. apply offset_move_q_modes; auto.
  - exists (fun x y => (x, y)). eapply refines_rect; try eassumption; try reflexivity;
      [apply dhexq_axis_ok | left; reflexivity |].
    intros c d Hc. apply both_modes_code. apply offset_move_q_modes; auto.
  - exists (fun x y => (x, y)). eapply refines_rect; try eassumption; try reflexivity;
      [apply hexq_axis_ok | left; reflexivity |].
    intros c d Hc. apply both_modes_code. apply offset_move_q_lew_modes; auto.
  - exists (axial_cell (co_r b)). unfold_axial.
    eapply refines_axial; try eassumption; try reflexivity;
      [apply co_r_range | apply hexr_axis_ok | |].
    + intros c d Hc. apply both_modes_code. apply axial_r_lew_modes; auto.
    + intros. apply default_move_coord_unchecked_ok; assumption.
  - exists (axial_cell (co_r b)). unfold_axial.
    eapply refines_axial; try eassumption; try reflexivity;
      [apply co_r_range | apply dhexr_axis_ok | |].
    + intros c d Hc. apply both_modes_code. apply axial_r_lew_modes; auto.
    + intros. apply default_move_coord_unchecked_ok; assumption.
  - exists (axial_cell (co_q b)). unfold_axial.
    eapply refines_axial; try eassumption; try reflexivity;
      [apply co_q_range | apply hexq_axis_ok | |].
    + intros c d Hc. apply both_modes_code. apply axial_q_lew_modes; auto.
    + intros. apply default_move_coord_unchecked_ok; assumption.
  - exists (axial_cell (co_q b)). unfold_axial.
    eapply refines_axial; try eassumption; try reflexivity;
      [apply co_q_range | apply dhexq_axis_ok | |].
    + intros c d Hc. apply both_modes_code. apply axial_q_lew_modes; auto.
    + intros. apply default_move_coord_unchecked_ok; assumption.
  - exists double_cell. apply double_refines. auto.
Qed.

(** ** Shapes whose stored edges can be read from both ends *)

Lemma traversable_stored : forall A D (s : Shape Cell A D) G, Traversable s G -> Stored s G.
Proof.
  intros A D s G H. destruct H; [apply st_supported|apply st_offset_q_dir|apply st_axial_r_loop|
    apply st_axial_r_dir_loop|apply st_axial_q_loop|apply st_axial_q_dir_loop|
    apply st_offset_q|apply st_offset_q_loop|apply st_double]; auto.
Qed.

(** A step of the looped axial shapes, from a cell of the board. *)
Lemma axial_r_lew_step : forall k b w h r q d, fits w h -> axial_fits k (co_r b) w h ->
  In (r, q) (board w h (axial_cell (co_r b))) ->
  axial_move_coord_lew k (axial_move_r k) (co_r b) w h Release (r, q) d =
    Ok (let (r', q') := match d with
        | RE => (r + 1, q) | RW => (r - 1, q)
        | RNE => (r, q + 1) | RNW => (r - 1, q + 1)
        | RSE => (r + 1, q - 1) | RSW => (r, q - 1) end in
        if (0 <=? q') && (q' <? h)
        then Some (if r' + half_row (co_r b) q' <? 0 then r' + w
                   else if w + half_row (co_r b) q' <=? r' then r' - w else r', q')
        else None).
Proof.
  intros k b w h r q d F Hf Hin. pose proof (co_r_range b) as Hco.
  pose proof (axial_move_r_ok k (co_r b) w h Release r q d Hco F Hf Hin) as Hm.
  apply in_axial in Hin. unfold half_row in Hin.
  destruct d;
    (rewrite (axial_lew_any _ k _ (co_r b) w h Release _ _ _ _ Hco F Hf Hm)
       by (unfold half_row; lia)); reflexivity.
Qed.
Lemma axial_q_lew_step : forall k b w h r q d, fits w h -> axial_fits k (co_q b) w h ->
  In (r, q) (board w h (axial_cell (co_q b))) ->
  axial_move_coord_lew k (axial_move_q k) (co_q b) w h Release (r, q) d =
    Ok (let (r', q') := match d with
        | QN => (r, q + 1) | QNE => (r + 1, q) | QSE => (r + 1, q - 1)
        | QS => (r, q - 1) | QSW => (r - 1, q) | QNW => (r - 1, q + 1) end in
        if (0 <=? q') && (q' <? h)
        then Some (if r' + half_row (co_q b) q' <? 0 then r' + w
                   else if w + half_row (co_q b) q' <=? r' then r' - w else r', q')
        else None).
Proof.
  intros k b w h r q d F Hf Hin. pose proof (co_q_range b) as Hco.
  pose proof (axial_move_q_ok k (co_q b) w h Release r q d Hco F Hf Hin) as Hm.
  apply in_axial in Hin. unfold half_row in Hin.
  destruct d;
    (rewrite (axial_lew_any _ k _ (co_q b) w h Release _ _ _ _ Hco F Hf Hm)
       by (unfold half_row; lia)); reflexivity.
Qed.

(** Every step of the other shapes without a lattice, from a cell of the board. *)
Lemma offset_q_step : forall w h flag m x y d, fits w h -> 0 <= x < w -> 0 <= y < h ->
  offset_move_q w h flag m (x, y) d =
    Ok (let z := y mod 2 =? flag in
        match d with
        | QN => if y + 1 <? h then Some (x, y + 1) else None
        | QS => if 1 <=? y then Some (x, y - 1) else None
        | QNE => if x + 1 <? w then Some (x + 1, if z then y + 1 else y) else None
        | QSE => if (1 <=? x) && (negb z || (y + 1 <? h))
                 then Some (x - 1, if z then y + 1 else y) else None
        | QSW => if (1 <=? x) && (z || (1 <=? y))
                 then Some (x - 1, if z then y else y - 1) else None
        | QNW => if (x + 1 <? w) && (z || (1 <=? y))
                 then Some (x + 1, if z then y else y - 1) else None
        end).
Proof.
  intros w h flag m x y d F Hx Hy. apply fits_bounds in F. rewrite IMAX1_val in F.
  unfold offset_move_q, parity_is. cbn [snd]. cbv zeta.
  destruct (y mod 2 =? flag) eqn:P; cbn [negb]; destruct d; moves; cbn [negb orb andb];
    split_ifs; try reflexivity; lia.
Qed.
Lemma offset_q_lew_step : forall w h flag m x y d, fits w h -> 0 <= x < w -> 0 <= y < h ->
  offset_move_q_lew w h flag m (x, y) d =
    Ok (let z := y mod 2 =? flag in
        let e := if x + 1 <? w then x + 1 else 0 in
        let b := if 1 <=? x then x - 1 else w - 1 in
        match d with
        | QN => Some (e, y)
        | QS => Some (b, y)
        | QNE => if z then (if y + 1 <? h then Some (e, y + 1) else None)
                 else (if x + 1 <? w then Some (x + 1, y) else None)
        | QSE => if z then (if 1 <=? y then Some (e, y - 1) else None)
                 else (if 1 <=? x then Some (x - 1, y) else None)
        | QSW => if z then (if 1 <=? x then Some (x - 1, y) else None)
                 else (if 1 <=? y then Some (b, y - 1) else None)
        | QNW => if z then (if x + 1 <? w then Some (x + 1, y) else None)
                 else (if y + 1 <? h then Some (b, y + 1) else None)
        end).
Proof.
  intros w h flag m x y d F Hx Hy. apply fits_bounds in F. rewrite IMAX1_val in F.
  unfold offset_move_q_lew, parity_is. cbn [snd]. cbv zeta.
  destruct (y mod 2 =? flag) eqn:P; cbn [negb]; destruct d; moves; cbn [negb orb andb];
    split_ifs; try reflexivity; lia.
Qed.
Lemma double_step : forall w h m x y d, fits w h -> 0 <= x / 2 < w -> 0 <= y < h ->
  double_move_r w h m (x, y) d =
    Ok (match d with
        | RNE => if (x + 1 <? w) && (y + 1 <? h) then Some (x + 1, y + 1) else None
        | RE => if x + 2 <? w then Some (x + 2, y) else None
        | RSE => if (x + 1 <? w) && (1 <=? y) then Some (x + 1, y - 1) else None
        | RSW => if (1 <=? x) && (1 <=? y) then Some (x - 1, y - 1) else None
        | RW => if 2 <=? x then Some (x - 2, y) else None
        | RNW => if (1 <=? x) && (y + 1 <? h) then Some (x - 1, y + 1) else None
        end).
Proof.
  intros w h m x y d F Hx Hy. apply fits_bounds in F. rewrite IMAX1_val in F.
  unfold double_move_r.
  destruct d; unfold checked_sub; usimp; split_ifs; usimp; split_ifs; usimp; split_ifs;
    try reflexivity; lia.
Qed.

Lemma traversable_readable : forall A D (s : Shape Cell A D) G, Traversable s G -> Readable G.
Proof.
  intros A D s G H. destruct H.
  - eapply regular_readable. eapply supported_regular. eauto.
  - intros c d c' a Hd. discriminate.
  - intros [r q] d [r' q'] a _ Hin Hs Ho. pose proof (co_r_range b) as Hco.
    unfold axial_code_geometry, code_geometry in *. unfold edge_exists.
    cbn [geo_nodes geo_step geo_ax] in *.
    assert (Hmv : sh_move_coord (hex_axial_r_lew k b w h)
                  = axial_move_coord_lew k (axial_move_r k) (co_r b) w h)
      by (unfold_axial; reflexivity).
    unfold Cell in *. rewrite Hmv in Hs. rewrite Hmv.
    rewrite axial_r_lew_step in Hs by auto.
    assert (Hin' : In (r', q') (board w h (axial_cell (co_r b)))).
    { apply in_axial in Hin. apply in_axial. unfold half_row in *.
      destruct a, d; try discriminate Ho; destruct ((0 <=? _) && (_ <? h)) eqn:E1; try discriminate Hs;
        injection Hs as <- <-; repeat match goal with |- context [if ?x then _ else _] =>
          destruct x eqn:? end; lia. }
    split; auto. rewrite axial_r_lew_step by auto. apply in_axial in Hin.
    destruct a, d; try discriminate Ho; cbn [hexr_axes ag_fwd];
      destruct ((0 <=? _) && (_ <? h)) eqn:E1 in Hs; try discriminate Hs;
      injection Hs as _ <-; (replace ((0 <=? _) && (_ <? h)) with true by lia); discriminate.
  - intros c d c' a Hd. discriminate.
  - intros [r q] d [r' q'] a _ Hin Hs Ho. pose proof (co_q_range b) as Hco.
    unfold axial_code_geometry, code_geometry in *. unfold edge_exists.
    cbn [geo_nodes geo_step geo_ax] in *.
    assert (Hmv : sh_move_coord (hex_axial_q_lew k b w h)
                  = axial_move_coord_lew k (axial_move_q k) (co_q b) w h)
      by (unfold_axial; reflexivity).
    unfold Cell in *. rewrite Hmv in Hs. rewrite Hmv.
    rewrite axial_q_lew_step in Hs by auto.
    assert (Hin' : In (r', q') (board w h (axial_cell (co_q b)))).
    { apply in_axial in Hin. apply in_axial. unfold half_row in *.
      destruct a, d; try discriminate Ho; destruct ((0 <=? _) && (_ <? h)) eqn:E1; try discriminate Hs;
        injection Hs as <- <-; repeat match goal with |- context [if ?x then _ else _] =>
          destruct x eqn:? end; lia. }
    split; auto. rewrite axial_q_lew_step by auto. apply in_axial in Hin.
    destruct a, d; try discriminate Ho; cbn [hexq_axes ag_fwd];
      destruct ((0 <=? _) && (_ <? h)) eqn:E1 in Hs; try discriminate Hs;
      injection Hs as _ <-; (replace ((0 <=? _) && (_ <? h)) with true by lia); discriminate.
  - intros c d c' a Hd. discriminate.
  - intros [x y] d [x' y'] a _ Hin Hs Ho.
    unfold rect_code_geometry, code_geometry in *. unfold edge_exists.
    cbn [geo_nodes geo_step geo_ax sh_move_coord hex_offset_q offset_shape] in *.
    apply in_rect in Hin. unfold Cell in *. rewrite offset_q_step in Hs by (auto; lia).
    assert (Hin' : 0 <= x' < w /\ 0 <= y' < h).
    { destruct a, d; try discriminate Ho; cbv zeta in Hs; destruct (y mod 2 =? q_flag b) eqn:P;
        cbn [negb orb andb] in Hs; split_ifs_in Hs; try discriminate Hs; injection Hs as <- <-; lia. }
    split; [apply in_rect; auto|]. rewrite offset_q_step by (auto; lia).
    cbv zeta in *. destruct (y mod 2 =? q_flag b) eqn:P in Hs; unfold co_q, q_flag in *;
      destruct a, d; try discriminate Ho; cbn [hexq_axes ag_fwd];
      cbn [negb orb andb] in Hs; split_ifs_in Hs;
      try discriminate Hs; injection Hs as <- <-; destruct b; split_ifs; try discriminate; lia.
  - intros [x y] d [x' y'] a _ Hin Hs Ho.
    unfold rect_code_geometry, code_geometry in *. unfold edge_exists.
    cbn [geo_nodes geo_step geo_ax sh_move_coord hex_offset_q_lew offset_shape] in *.
    apply in_rect in Hin. unfold Cell in *. rewrite offset_q_lew_step in Hs by (auto; lia).
    assert (Hin' : 0 <= x' < w /\ 0 <= y' < h).
    { destruct a, d; try discriminate Ho; cbv zeta in Hs; destruct (y mod 2 =? q_flag b) eqn:P;
        cbn [negb orb andb] in Hs; split_ifs_in Hs; try discriminate Hs; injection Hs as <- <-; lia. }
    split; [apply in_rect; auto|]. rewrite offset_q_lew_step by (auto; lia).
    cbv zeta in *. destruct (y mod 2 =? q_flag b) eqn:P in Hs; unfold co_q, q_flag in *;
      destruct a, d; try discriminate Ho; cbn [hexq_axes ag_fwd];
      cbn [negb orb andb] in Hs; split_ifs_in Hs;
      try discriminate Hs; injection Hs as <- <-; destruct b; split_ifs; try discriminate;
      try lia; destruct H0 as [?|[?|[HE _]]]; try discriminate HE; lia.
  - intros [x y] d [x' y'] a _ Hin Hs Ho. exfalso.
    unfold double_code_geometry, code_geometry in *.
    cbn [geo_nodes geo_step geo_ax sh_move_coord double_shape] in *.
    apply in_double in Hin. unfold Cell in *. rewrite double_step in Hs by (auto; lia).
    assert (w = 1 /\ h = 1) by nia.
    destruct a, d; try discriminate Ho; split_ifs_in Hs; try discriminate Hs; lia.
Qed.

(** The two lists of shapes are complete. *)
Lemma untraversable_stored : forall A D (s : Shape Cell A D) G, Untraversable s G -> Stored s G.
Proof.
  intros A D s G H. destruct H; [apply st_offset_q|apply st_offset_q_loop|apply st_double]; auto.
Qed.

Lemma traversable_or_not : forall A D (s : Shape Cell A D) G, Stored s G ->
  Traversable s G \/ Untraversable s G.
Proof.
  intros A D s G H. destruct H.
  - left. apply tr_supported. auto.
  - pose proof (fits_bounds _ _ H) as B.
    assert (C : (w <= 1 \/ h = 0 \/ h mod 2 = co_q b) \/ (2 <= w /\ 1 <= h /\ h mod 2 <> co_q b)) by lia.
    destruct C as [C|(C1 & C2 & C3)]; [left; apply tr_offset_q|right; apply un_offset_q]; auto.
  - left. apply tr_offset_q_dir. auto.
  - pose proof (fits_bounds _ _ H) as B.
    assert (C : (w <= 1 \/ h = 0 \/ (b = EvenQ /\ h mod 2 = 1)) \/
                (2 <= w /\ 1 <= h /\ (b = OddQ \/ h mod 2 = 0))).
    { destruct b; [|assert (h mod 2 = 0 \/ h mod 2 = 1) as [?|?] by lia];
        (assert (w <= 1 \/ 2 <= w) as [?|?] by lia); (assert (h = 0 \/ 1 <= h) as [?|?] by lia); auto 6. }
    destruct C as [C|(C1 & C2 & C3)]; [left; apply tr_offset_q_loop|right; apply un_offset_q_loop]; auto.
  - left. apply tr_axial_r_loop; auto.
  - left. apply tr_axial_r_dir_loop; auto.
  - left. apply tr_axial_q_loop; auto.
  - left. apply tr_axial_q_dir_loop; auto.
  - assert (C : w * h <= 1 \/ 2 <= w * h) by lia.
    destruct C; [left; apply tr_double|right; apply un_double]; auto.
Qed.

(** Some edge that [edges] reads through its other end has not been written. *)
Definition backward_closed {A D} (G : Geometry A D) : Prop := forall c d c' a,
  In c (geo_nodes G) -> geo_step G c d = Some c' -> opposite (geo_ax G) d (ag_fwd (geo_ax G) a) ->
  In c' (geo_nodes G).

Lemma untraversable_missing : forall A D (s : Shape Cell A D) G, Untraversable s G ->
  ag_directed (geo_ax G) = false /\ backward_closed G /\
  exists c d c' a, In c (geo_nodes G) /\ geo_step G c d = Some c' /\
    opposite (geo_ax G) d (ag_fwd (geo_ax G) a) /\ ~ edge_exists G c' a.
Proof.
  intros A D s G H. destruct H; (split; [reflexivity|]).
  - split.
    + intros [x y] d [x' y'] a Hin Hs Ho. unfold rect_code_geometry, code_geometry in *.
      cbn [geo_nodes geo_step geo_ax sh_move_coord hex_offset_q offset_shape] in *.
      apply in_rect in Hin. unfold Cell in *. rewrite offset_q_step in Hs by (auto; lia).
      apply in_rect. destruct a, d; try discriminate Ho; cbv zeta in Hs;
        destruct (y mod 2 =? q_flag b) eqn:P;
        cbn [negb orb andb] in Hs; split_ifs_in Hs; try discriminate Hs; injection Hs as <- <-; lia.
    + exists (0, h - 1), QNW, (1, h - 1), BSE. unfold edge_exists, rect_code_geometry, code_geometry.
      cbn [geo_nodes geo_step geo_ax sh_move_coord hex_offset_q offset_shape hexq_axes ag_fwd].
      unfold Cell. rewrite !offset_q_step by (auto; lia). cbv zeta.
      replace ((h - 1) mod 2 =? q_flag b) with true by (destruct b; cbn [co_q q_flag] in *; lia).
      cbn [negb orb andb]. rewrite !andb_true_r, ?andb_false_r. cbn [negb orb andb].
      split; [apply in_rect; lia|].
      replace (0 + 1 <? w) with true by lia. split; [reflexivity|]. split; [reflexivity|].
      intros [_ H3]. replace (h - 1 + 1 <? h) with false in H3 by lia.
      rewrite andb_false_r in H3. auto.
  - split.
    + intros [x y] d [x' y'] a Hin Hs Ho. unfold rect_code_geometry, code_geometry in *.
      cbn [geo_nodes geo_step geo_ax sh_move_coord hex_offset_q_lew offset_shape] in *.
      apply in_rect in Hin. unfold Cell in *. rewrite offset_q_lew_step in Hs by (auto; lia).
      apply in_rect. destruct a, d; try discriminate Ho; cbv zeta in Hs;
        destruct (y mod 2 =? q_flag b) eqn:P;
        cbn [negb orb andb] in Hs; split_ifs_in Hs; try discriminate Hs; injection Hs as <- <-; lia.
    + assert (C : b = OddQ \/ (b = EvenQ /\ h mod 2 = 0)) by (destruct b, H2; auto; discriminate).
      unfold edge_exists, rect_code_geometry, code_geometry.
      cbn [geo_nodes geo_step geo_ax sh_move_coord hex_offset_q_lew offset_shape hexq_axes ag_fwd].
      unfold Cell. destruct C as [->|[-> Hh]].
      * exists (0, 0), QNW, (1, 0), BSE. cbn [hexq_axes ag_fwd].
        rewrite !offset_q_lew_step by (auto; lia). cbv zeta. cbn [q_flag].
        replace (0 mod 2 =? 0) with true by reflexivity. replace (0 + 1 <? w) with true by lia.
        split; [apply in_rect; lia|]. split; [reflexivity|]. split; [reflexivity|].
        intros [_ H3]. apply H3. reflexivity.
      * exists (1, h - 1), QSW, (0, h - 1), BNE. cbn [hexq_axes ag_fwd].
        rewrite !offset_q_lew_step by (auto; lia). cbv zeta. cbn [q_flag].
        replace ((h - 1) mod 2 =? 1) with true by lia. replace (h - 1 + 1 <? h) with false by lia.
        split; [apply in_rect; lia|]. split; [reflexivity|]. split; [reflexivity|].
        intros [_ H3]. apply H3. reflexivity.
  - assert (B := fits_bounds _ _ H). assert (Hwh : 1 <= w /\ 1 <= h) by nia. split.
    + intros [x y] d [x' y'] a Hin Hs Ho. unfold double_code_geometry, code_geometry in *.
      cbn [geo_nodes geo_step geo_ax sh_move_coord double_shape] in *.
      apply in_double in Hin. unfold Cell in *. rewrite double_step in Hs by (auto; lia).
      apply in_double. destruct a, d; try discriminate Ho;
        split_ifs_in Hs; try discriminate Hs; injection Hs as <- <-; lia.
    + unfold edge_exists, double_code_geometry, code_geometry.
      cbn [geo_nodes geo_step geo_ax sh_move_coord double_shape].
      unfold Cell. assert (C : 2 <= w \/ (w = 1 /\ 2 <= h)) by nia. destruct C as [C|[-> C]].
      * exists (2 * (w - 1), 0), RW, (2 * (w - 2), 0), AE. cbn [hexr_axes ag_fwd].
        rewrite !double_step by (auto; lia).
        split; [apply in_double; lia|]. replace (2 <=? 2 * (w - 1)) with true by lia.
        split; [apply f_equal; apply pair_eq; lia|]. split; [reflexivity|].
        intros [_ H3]. replace (2 * (w - 2) + 2 <? w) with false in H3 by lia. auto.
      * exists (1, 1), RSW, (0, 0), ANE. cbn [hexr_axes ag_fwd].
        rewrite !double_step by (auto; cbn; lia).
        split; [apply in_double; cbn; lia|]. split; [reflexivity|]. split; [reflexivity|].
        intros [_ H3]. apply H3. reflexivity.
Qed.
