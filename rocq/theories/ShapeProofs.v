(** * ShapeProofs: every supported shape implements its lattice. *)

From Verif Require Import Machine Store Axes Shapes Spec Basics AxisProofs GeoProofs.
From Coq Require Import ZifyBool ZifyNat.
Ltac Zify.zify_post_hook ::= Z.div_mod_to_equations.

Lemma step_eq : forall A D (G : Geometry A D) pos period c d t, placed G pos period ->
  match t with
  | Some c' => In c' (geo_nodes G) /\
      same_place period (vadd (pos c) (ag_vec (geo_ax G) d)) (pos c') = true
  | None => forall c', In c' (geo_nodes G) ->
      same_place period (vadd (pos c) (ag_vec (geo_ax G) d)) (pos c') = true -> False
  end -> geo_step G c d = t.
Proof.
  intros A D G pos period c d [c'|] PL H.
  - apply (geo_step_some PL); tauto.
  - apply (geo_step_none PL). intros c' Hin.
    destruct (same_place _ _ _) eqn:E; auto. exfalso; eauto.
Qed.

Lemma same_place_zero : forall a b, same_place (0, 0) a b = true <-> a = b.
Proof.
  intros. rewrite same_place_iff. simpl. split; [intros [[_ H]|[H _]]|]; auto. lia.
Qed.

Lemma loop_inj : forall w k x x' : Z, 0 <= x < w -> 0 <= x' < w -> x = x' + k * w -> k = 0.
Proof. intros. nia. Qed.

Lemma pair_eq : forall (a b c d : Z), a = c -> b = d -> (a, b) = (c, d).
Proof. congruence. Qed.

Lemma pair_inv : forall (a b c d : Z), (a, b) = (c, d) -> a = c /\ b = d.
Proof. intros a b c d [= -> ->]; auto. Qed.

(** ** Square *)

Lemma square_inj : forall A D (ax : AxisGeo A D) w h,
  placed (square_geometry ax w h) (fun c => c) (0, 0).
Proof.
  intros A D ax w h. split; [reflexivity|]. intros c c' _ _ H. apply same_place_zero in H. auto.
Qed.

Lemma ok_eq : forall A (a b : A), b = a -> Ok a = Ok b.
Proof. congruence. Qed.

Ltac fin :=
  match goal with
  | |- Ok _ = Ok _ => apply ok_eq; eapply step_eq
  end.

(** Unfold a membership hypothesis or goal for a rectangular board. *)
Lemma in_rect : forall w h x y,
  In (x, y) (board w h (fun x y => (x, y))) <-> 0 <= x < w /\ 0 <= y < h.
Proof.
  intros. rewrite in_board. split.
  - intros (a & b & Ha & Hb & [= -> ->]); auto.
  - intros [Hx Hy]. exists x, y; auto.
Qed.

Ltac usimp :=
  repeat first
    [ rewrite usize_add_ok by (rewrite ?USIZE_val in *; rewrite ?IMAX1_val in *; lia)
    | rewrite isize_add_ok by (rewrite ?USIZE_val in *; rewrite ?IMAX1_val in *; lia)
    | rewrite isize_sub_ok by (rewrite ?USIZE_val in *; rewrite ?IMAX1_val in *; lia)
    | rewrite usize_sub_ok by (rewrite ?USIZE_val in *; rewrite ?IMAX1_val in *; lia) ];
  cbn [bind bindo fst snd].

Ltac split_ifs :=
  repeat (match goal with
  | |- context [if ?b then _ else _] =>
      lazymatch b with context [if _ then _ else _] => fail | _ => destruct b eqn:? end
  end; cbn [bind bindo fst snd]).

Ltac split_ifs_in H :=
  repeat match type of H with
  | context [if ?b then _ else _] =>
      lazymatch b with context [if _ then _ else _] => fail | _ => destruct b eqn:? end
  end.

Ltac moves :=
  unfold wrap_add_x, wrap_sub_x, add_check_x, add_check_y, add_x, add_y, sub_x, sub_y,
    checked_sub, check_x, check_y, set_x;
  cbn [bind bindo fst snd]; usimp; split_ifs; usimp; split_ifs; usimp; split_ifs.

Ltac plain_some := split; [apply in_rect; lia | apply same_place_zero; apply pair_eq; cbn -[Z.mul Z.modulo Z.add Z.sub Z.opp]; lia].
Ltac plain_none :=
  let c := fresh "c" in let H := fresh "H" in let H' := fresh "H" in
  intros [? ?] H H'; apply in_rect in H; apply same_place_zero in H'; unfold vadd in H'; cbn -[Z.mul Z.modulo Z.add Z.sub Z.opp] in H';
  apply pair_inv in H'; lia.

Lemma square_move_ok : forall A (ax : AxisGeo A DirectedSquareAxis) w h m c d, fits w h ->
  ag_vec ax = square_vec ->
  In c (board w h (fun x y => (x, y))) ->
  square_move_coord w h m c d = Ok (geo_step (square_geometry ax w h) c d).
Proof.
  intros A ax w h m [x y] d F Hv Hin. apply in_rect in Hin.
  apply fits_bounds in F. rewrite IMAX1_val in F.
  destruct d; unfold square_move_coord; moves; fin; try apply square_inj;
    cbn -[Z.mul Z.modulo Z.add Z.sub Z.opp same_place offset_r_pos]; rewrite Hv; first [plain_some | plain_none].
Qed.

Lemma diagonal_move_ok : forall A (ax : AxisGeo A DirectedSquareDiagonalAxis) w h m c d,
  fits w h -> ag_vec ax = diagonal_vec ->
  In c (board w h (fun x y => (x, y))) ->
  diagonal_move_coord w h m c d = Ok (geo_step (square_geometry ax w h) c d).
Proof.
  intros A ax w h m [x y] d F Hv Hin. apply in_rect in Hin.
  apply fits_bounds in F. rewrite IMAX1_val in F.
  destruct d; unfold diagonal_move_coord; moves; fin; try apply square_inj;
    cbn -[Z.mul Z.modulo Z.add Z.sub Z.opp same_place offset_r_pos]; rewrite Hv; first [plain_some | plain_none].
Qed.

(** ** Offset coordinates *)

Lemma offset_pos_inj : forall b x y x' y',
  offset_r_pos b (x, y) = offset_r_pos b (x', y') -> x = x' /\ y = y'.
Proof.
  intros b x y x' y' H. unfold offset_r_pos in H. cbn [fst snd] in H.
  destruct b; apply pair_inv in H; lia.
Qed.

Lemma offset_r_inj : forall A (ax : AxisGeo A AxisDR) b w h,
  placed (offset_r_geometry ax b w h) (offset_r_pos b) (0, 0).
Proof.
  intros A ax b w h. split; [reflexivity|]. intros [x y] [x' y'] _ _ H. apply same_place_zero in H.
  apply offset_pos_inj in H. destruct H; congruence.
Qed.

Lemma offset_r_move_ok : forall A (ax : AxisGeo A AxisDR) b w h m c d, fits w h ->
  ag_vec ax = hexr_vec ->
  In c (board w h (fun x y => (x, y))) ->
  offset_move_r w h (r_flag b) m c d = Ok (geo_step (offset_r_geometry ax b w h) c d).
Proof.
  intros A ax b w h m [x y] d F Hv Hin. apply in_rect in Hin.
  apply fits_bounds in F. rewrite IMAX1_val in F.
  unfold offset_move_r, parity_is.
  destruct b; simpl r_flag; cbn [snd]; destruct (y mod 2 =? _) eqn:P; destruct d;
    moves; fin; try apply offset_r_inj; cbn -[Z.mul Z.modulo Z.add Z.sub Z.opp same_place offset_r_pos]; rewrite Hv; first [plain_some | plain_none].
Qed.

Lemma offset_r_loop_inj : forall A (ax : AxisGeo A AxisDR) b w h,
  placed (offset_r_loop_geometry ax b w h) (offset_r_pos b) (2 * w, 0).
Proof.
  intros A ax b w h. split; [reflexivity|]. intros [x y] [x' y'] H1 H2 H. cbn -[Z.mul Z.modulo Z.add Z.sub Z.opp] in H.
  apply in_rect in H1. apply in_rect in H2.
  apply same_place_iff in H. destruct H as [[H _] | (_ & k & Ha & Hb)]; [cbn [fst] in H; lia|].
  cbn [fst snd] in Ha, Hb. destruct b; cbn -[Z.mul Z.modulo Z.add Z.sub Z.opp] in Ha, Hb;
    assert (y = y') by lia; subst y';
    assert (k = 0) by (apply (loop_inj w k x x'); lia); subst k;
    apply pair_eq; lia.
Qed.

Ltac loop_some k0 :=
  split; [apply in_rect; lia | apply same_place_iff; right; split;
    [cbn [fst]; lia | exists k0; cbn -[Z.mul Z.modulo Z.add Z.sub Z.opp]; lia]].
Ltac loop_none :=
  let H := fresh "H" in let H' := fresh "H" in let k := fresh "k" in
  intros [? ?] H H'; apply in_rect in H; apply same_place_iff in H';
  destruct H' as [[H' _] | (_ & k & _ & H')]; cbn -[Z.mul Z.modulo Z.add Z.sub Z.opp] in H'; lia.

Lemma offset_r_loop_move_ok : forall A (ax : AxisGeo A AxisDR) b w h m c d, fits w h ->
  ag_vec ax = hexr_vec ->
  In c (board w h (fun x y => (x, y))) ->
  offset_move_r_lew w h (r_flag b) m c d
    = Ok (geo_step (offset_r_loop_geometry ax b w h) c d).
Proof.
  intros A ax b w h m [x y] d F Hv Hin. apply in_rect in Hin.
  apply fits_bounds in F. rewrite IMAX1_val in F.
  unfold offset_move_r_lew, parity_is.
  destruct b; simpl r_flag; cbn [snd]; destruct (y mod 2 =? _) eqn:P; destruct d;
    moves; fin; try apply offset_r_loop_inj; cbn -[Z.mul Z.modulo Z.add Z.sub Z.opp same_place offset_r_pos]; rewrite Hv;
    first [loop_some 0 | loop_some 1 | loop_some (-1) | loop_none].
Qed.

(** ** Axial coordinates *)

(** Half the row number: the shift of row [y]. *)
Definition half_row (co y : Z) : Z := (y + co) / 2.

Lemma in_axial : forall co w h r q,
  In (r, q) (board w h (axial_cell co)) <-> 0 <= r + half_row co q < w /\ 0 <= q < h.
Proof.
  intros. rewrite in_board. unfold axial_cell, half_row. split.
  - intros (a & b & Ha & Hb & H). apply pair_inv in H. destruct H as [-> ->]. lia.
  - intros [Hx Hy]. exists (r + (q + co) / 2), q. repeat split; try lia. apply pair_eq; lia.
Qed.

Lemma axial_r_pos_inj : forall r q r' q',
  axial_r_pos (r, q) = axial_r_pos (r', q') -> (r, q) = (r', q').
Proof.
  intros r q r' q' H. unfold axial_r_pos in H. cbn [fst snd] in H. apply pair_inv in H.
  apply pair_eq; lia.
Qed.
Lemma axial_q_pos_inj : forall r q r' q',
  axial_q_pos (r, q) = axial_q_pos (r', q') -> (r, q) = (r', q').
Proof.
  intros r q r' q' H. unfold axial_q_pos in H. cbn [fst snd] in H. apply pair_inv in H.
  apply pair_eq; lia.
Qed.

Lemma axial_r_inj : forall A (ax : AxisGeo A AxisDR) k b w h,
  placed (axial_r_geometry ax k b w h) axial_r_pos (0, 0).
Proof.
  intros A ax k b w h. split; [reflexivity|]. intros [r q] [r' q'] _ _ H. apply same_place_zero in H.
  apply axial_r_pos_inj; auto.
Qed.
Lemma axial_q_inj : forall A (ax : AxisGeo A AxisDQ) k b w h,
  placed (axial_q_geometry ax k b w h) axial_q_pos (0, 0).
Proof.
  intros A ax k b w h. split; [reflexivity|]. intros [r q] [r' q'] _ _ H. apply same_place_zero in H.
  apply axial_q_pos_inj; auto.
Qed.
Lemma axial_r_loop_inj : forall A (ax : AxisGeo A AxisDR) k b w h,
  placed (axial_r_loop_geometry ax k b w h) axial_r_pos (2 * w, 0).
Proof.
  intros A ax k b w h. split; [reflexivity|]. intros [r q] [r' q'] H1 H2 H. apply in_axial in H1. apply in_axial in H2.
  apply same_place_iff in H. cbn [fst snd] in H.
  unfold axial_r_pos in H. cbn [fst snd] in H.
  destruct H as [[H _] | (_ & n & Ha & Hb)]; [lia|].
  assert (q = q') by lia. subst q'.
  assert (n = 0) by (apply (loop_inj w n (r + half_row (co_r b) q) (r' + half_row (co_r b) q)); lia).
  subst n. apply pair_eq; lia.
Qed.
Lemma axial_q_loop_inj : forall A (ax : AxisGeo A AxisDQ) k b w h,
  placed (axial_q_loop_geometry ax k b w h) axial_q_pos (w, w).
Proof.
  intros A ax k b w h. split; [reflexivity|]. intros [r q] [r' q'] H1 H2 H. apply in_axial in H1. apply in_axial in H2.
  apply same_place_iff in H. cbn [fst snd] in H.
  unfold axial_q_pos in H. cbn [fst snd] in H.
  destruct H as [[H _] | (_ & n & Ha & Hb)]; [lia|].
  assert (q = q') by lia. subst q'.
  assert (n = 0) by (apply (loop_inj w n (r + half_row (co_q b) q) (r' + half_row (co_q b) q)); lia).
  subst n. apply pair_eq; lia.
Qed.

(** [to_offset] on coordinates that are not extremely large. *)
Lemma axial_to_offset_ok : forall co w h m r q,
  0 <= co <= 1 -> 0 <= w < IMAX1 -> 0 <= h < IMAX1 -> - IMAX1 <= q < IMAX1 ->
  (0 <= q < h -> - IMAX1 <= r + half_row co q < IMAX1) ->
  axial_to_offset false co w h m (r, q) =
    Ok (if (0 <=? q) && (q <? h) && (0 <=? r + half_row co q) && (r + half_row co q <? w)
        then Some (r + half_row co q, q) else None).
Proof.
  intros co w h m r q Hco Hw Hh Hq Hr. unfold axial_to_offset, axial_shift, half_row in *.
  rewrite IMAX1_val in *.
  destruct (0 <=? q) eqn:E1.
  - rewrite as_usize_nonneg by (rewrite USIZE_val; lia).
    destruct (q <? h) eqn:E2; [|reflexivity].
    rewrite usize_add_ok by (rewrite USIZE_val; lia). cbn [bind].
    rewrite as_isize_small by (rewrite IMAX1_val; lia).
    rewrite isize_add_ok by (rewrite IMAX1_val; lia). cbn [bind].
    destruct (0 <=? r + (q + co) / 2) eqn:E3.
    + rewrite as_usize_nonneg by (rewrite USIZE_val; lia).
      destruct (r + (q + co) / 2 <? w); reflexivity.
    + rewrite as_usize_neg by (rewrite USIZE_val; lia).
      replace (r + (q + co) / 2 + USIZE <? w) with false by (rewrite USIZE_val; lia). reflexivity.
  - rewrite as_usize_neg by (rewrite USIZE_val; lia).
    replace (q + USIZE <? h) with false by (rewrite USIZE_val; lia). reflexivity.
Qed.

Lemma axial_to_offset_unchecked_ok : forall co m r q,
  0 <= co <= 1 -> 0 <= q < IMAX1 - 1 -> 0 <= r + half_row co q < IMAX1 ->
  axial_to_offset_unchecked false co m (r, q) = Ok (r + half_row co q, q).
Proof.
  intros co m r q Hco Hq Hr. unfold axial_to_offset_unchecked, axial_shift, half_row in *.
  rewrite IMAX1_val in *.
  rewrite !as_usize_nonneg by (rewrite USIZE_val; lia).
  rewrite usize_add_ok by (rewrite USIZE_val; lia). cbn [bind].
  rewrite as_isize_small by (rewrite IMAX1_val; lia).
  rewrite isize_add_ok by (rewrite IMAX1_val; lia). cbn [bind].
  rewrite as_usize_nonneg by (rewrite USIZE_val; lia). reflexivity.
Qed.

(** The coordinate can be built. *)
Definition rep (k : AxialKind) (r q : Z) : Prop :=
  match k with HAxial => True | Hex2d lo hi => lo <= r <= hi /\ lo <= q <= hi end.

Lemma ha_new_ok : forall k m r q, rep k r q -> ha_new k m r q = Ok (r, q).
Proof.
  intros [|lo hi] m r q; unfold ha_new, rep; auto. intros H.
  replace ((lo <=? r) && (r <=? hi) && (lo <=? q) && (q <=? hi)) with true by lia. auto.
Qed.

Lemma axial_coordinate_ok : forall k co w h m x y,
  0 <= co <= 1 -> 0 <= x < w -> 0 <= y < h -> w < IMAX1 -> h < IMAX1 ->
  axial_fits k co w h ->
  axial_offset_to_coordinate k false co m (x, y) = Ok (axial_cell co x y).
Proof.
  intros k co w h m x y Hco Hx Hy Hw Hh Hf.
  unfold axial_offset_to_coordinate, axial_shift, axial_cell. cbn [fst snd].
  rewrite IMAX1_val in *.
  rewrite usize_add_ok by (rewrite USIZE_val; lia). cbn [bind].
  rewrite !as_isize_small by (rewrite IMAX1_val; lia).
  rewrite isize_sub_ok by (rewrite IMAX1_val; lia). cbn [bind].
  apply ha_new_ok. destruct k; unfold rep, axial_fits in *; auto. lia.
Qed.

Lemma axial_move_r_ok : forall k co w h m r q d,
  0 <= co <= 1 -> fits w h -> axial_fits k co w h ->
  In (r, q) (board w h (axial_cell co)) ->
  axial_move_r k m (r, q) d =
    Ok (match d with
        | RNE => (r, q + 1) | RE => (r + 1, q) | RSE => (r + 1, q - 1)
        | RSW => (r, q - 1) | RW => (r - 1, q) | RNW => (r - 1, q + 1) end).
Proof.
  intros k co w h m r q d Hco F Hf Hin. apply in_axial in Hin. unfold half_row in Hin.
  apply fits_bounds in F. rewrite IMAX1_val in F.
  destruct d; unfold axial_move_r; usimp; apply ha_new_ok;
    destruct k; unfold rep, axial_fits in *; auto; lia.
Qed.

Lemma axial_move_q_ok : forall k co w h m r q d,
  0 <= co <= 1 -> fits w h -> axial_fits k co w h ->
  In (r, q) (board w h (axial_cell co)) ->
  axial_move_q k m (r, q) d =
    Ok (match d with
        | QN => (r, q + 1) | QNE => (r + 1, q) | QSE => (r + 1, q - 1)
        | QS => (r, q - 1) | QSW => (r - 1, q) | QNW => (r - 1, q + 1) end).
Proof.
  intros k co w h m r q d Hco F Hf Hin. apply in_axial in Hin. unfold half_row in Hin.
  apply fits_bounds in F. rewrite IMAX1_val in F.
  destruct d; unfold axial_move_q; usimp; apply ha_new_ok;
    destruct k; unfold rep, axial_fits in *; auto; lia.
Qed.

Ltac axial_some := split;
  [apply in_axial; unfold half_row; lia
  | apply same_place_zero; unfold axial_r_pos, axial_q_pos, vadd;
    cbn -[Z.mul Z.modulo Z.add Z.sub Z.opp Z.div]; apply pair_eq; lia].
Ltac axial_none :=
  let H := fresh "H" in let H' := fresh "H" in
  intros [? ?] H H'; apply in_axial in H; apply same_place_zero in H';
  unfold axial_r_pos, axial_q_pos, vadd, half_row in *;
  cbn -[Z.mul Z.modulo Z.add Z.sub Z.opp Z.div] in H'; apply pair_inv in H'; lia.

Lemma co_r_range : forall b, 0 <= co_r b <= 1. Proof. intros []; simpl; lia. Qed.
Lemma co_q_range : forall b, 0 <= co_q b <= 1. Proof. intros []; simpl; lia. Qed.

Lemma axial_r_move_ok : forall A (ax : AxisGeo A AxisDR) k b w h m c d, fits w h ->
  axial_fits k (co_r b) w h -> ag_vec ax = hexr_vec ->
  In c (board w h (axial_cell (co_r b))) ->
  axial_move_coord (axial_move_r k) false (co_r b) w h m c d
    = Ok (geo_step (axial_r_geometry ax k b w h) c d).
Proof.
  intros A ax k b w h m [r q] d F Hf Hv Hin. pose proof (co_r_range b) as Hco.
  unfold axial_move_coord. rewrite (axial_move_r_ok k (co_r b) w h) by auto. cbn [bind].
  apply in_axial in Hin. unfold half_row in Hin. apply fits_bounds in F. rewrite IMAX1_val in F.
  destruct d; (rewrite axial_to_offset_ok by (rewrite ?IMAX1_val; unfold half_row; lia));
    cbn [bind]; unfold half_row; split_ifs; fin; try apply axial_r_inj;
    cbn -[Z.mul Z.modulo Z.add Z.sub Z.opp same_place axial_r_pos]; rewrite Hv;
    first [axial_some | axial_none].
Qed.

Lemma axial_q_move_ok : forall A (ax : AxisGeo A AxisDQ) k b w h m c d, fits w h ->
  axial_fits k (co_q b) w h -> ag_vec ax = hexq_vec ->
  In c (board w h (axial_cell (co_q b))) ->
  axial_move_coord (axial_move_q k) false (co_q b) w h m c d
    = Ok (geo_step (axial_q_geometry ax k b w h) c d).
Proof.
  intros A ax k b w h m [r q] d F Hf Hv Hin. pose proof (co_q_range b) as Hco.
  unfold axial_move_coord. rewrite (axial_move_q_ok k (co_q b) w h) by auto. cbn [bind].
  apply in_axial in Hin. unfold half_row in Hin. apply fits_bounds in F. rewrite IMAX1_val in F.
  destruct d; (rewrite axial_to_offset_ok by (rewrite ?IMAX1_val; unfold half_row; lia));
    cbn [bind]; unfold half_row; split_ifs; fin; try apply axial_q_inj;
    cbn -[Z.mul Z.modulo Z.add Z.sub Z.opp same_place axial_q_pos]; rewrite Hv;
    first [axial_some | axial_none].
Qed.

(** ** Axial coordinates, loop in E-W direction *)

Lemma wrap_up_one : forall m w r, 0 <= w < IMAX1 -> r < 0 -> 0 <= r + w ->
  wrap_up m w 0 r = Ok (r + w).
Proof.
  intros m w r Hw Hr H. unfold wrap_up. apply loop_rounds with (n := 0%nat); [|lia].
  apply R_done. rewrite isize_add_ok by (rewrite IMAX1_val in *; lia). cbn [bind].
  replace (r + w <? 0) with false by lia. reflexivity.
Qed.

Lemma wrap_down_zero : forall m w max r, r < max -> wrap_down m w max r = Ok r.
Proof.
  intros m w max r H. unfold wrap_down. apply loop_rounds with (n := 0%nat); [|lia].
  apply R_done. replace (max <=? r) with false by lia. reflexivity.
Qed.

Lemma wrap_down_one : forall m w max r, 0 < w < IMAX1 -> - IMAX1 <= r - w < IMAX1 ->
  max <= r -> r - w < max -> wrap_down m w max r = Ok (r - w).
Proof.
  intros m w max r Hw Hr H1 H2. unfold wrap_down. apply loop_rounds with (n := 1%nat); [|lia].
  eapply R_more.
  - replace (max <=? r) with true by lia. rewrite isize_sub_ok by auto. reflexivity.
  - apply R_done. replace (max <=? r - w) with false by lia. reflexivity.
Qed.

(** The loop move on boards where every row starts at r = 0. *)
Lemma axial_lew_ok : forall D k mv co w h m (c : Z * Z) (d : D) r q,
  0 <= co <= 1 -> fits w h -> h + co <= 2 -> axial_fits k co w h ->
  mv m c d = Ok (r, q) -> -1 <= r <= w -> -1 <= q <= h -> 0 < w ->
  axial_move_coord_lew k mv co w h m c d =
    Ok (if (0 <=? q) && (q <? h)
        then Some (if r <? 0 then r + w else if w <=? r then r - w else r, q)
        else None).
Proof.
  intros D k mv co w h m c d r q Hco F Hh Hf Hmv Hr Hq Hw.
  apply fits_bounds in F. rewrite IMAX1_val in F.
  unfold axial_move_coord_lew. rewrite Hmv. cbn [bind fst snd].
  destruct (0 <=? q) eqn:E1.
  - rewrite as_usize_nonneg by (rewrite USIZE_val; lia).
    rewrite Z.leb_antisym. destruct (q <? h) eqn:E2; cbn [negb andb]; [|reflexivity].
    usimp. unfold isize_half. rewrite Z.quot_div_nonneg by lia.
    replace ((q + co) / 2) with 0 by lia.
    unfold isize_neg. rewrite wrap_isize_ok by (rewrite IMAX1_val; lia). cbn [bind].
    change (- 0) with 0. rewrite as_isize_small by (rewrite IMAX1_val; lia).
    destruct (r <? 0) eqn:E3.
    + rewrite wrap_up_one by (rewrite ?IMAX1_val; lia). cbn [bind].
      rewrite ha_new_ok; [reflexivity|].
      destruct k; unfold rep, axial_fits in *; auto. lia.
    + rewrite isize_sub_ok by (rewrite IMAX1_val; lia). cbn [bind]. rewrite Z.sub_0_r.
      destruct (w <=? r) eqn:E4.
      * rewrite wrap_down_one by (rewrite ?IMAX1_val; lia). cbn [bind].
        rewrite ha_new_ok; [reflexivity|].
        destruct k; unfold rep, axial_fits in *; auto. lia.
      * rewrite wrap_down_zero by lia. cbn [bind].
        rewrite ha_new_ok; [reflexivity|].
        destruct k; unfold rep, axial_fits in *; auto. lia.
  - rewrite as_usize_neg by (rewrite USIZE_val; lia).
    replace (h <=? q + USIZE) with true by (rewrite USIZE_val; lia). reflexivity.
Qed.

Ltac axloop_some k0 :=
  split; [apply in_axial; unfold half_row; lia
  | apply same_place_iff; right;
    split; [cbn [fst]; lia
    | exists k0; unfold axial_r_pos, axial_q_pos, vadd;
      cbn -[Z.mul Z.modulo Z.add Z.sub Z.opp Z.div]; lia]].
Ltac axloop_none :=
  let H := fresh "H" in let H' := fresh "H" in let k := fresh "k" in
  intros [? ?] H H'; apply in_axial in H; apply same_place_iff in H';
  unfold axial_r_pos, axial_q_pos, vadd, half_row in *;
  cbn -[Z.mul Z.modulo Z.add Z.sub Z.opp Z.div] in H';
  destruct H' as [[H' _] | (_ & k & H' & H'')]; lia.

Lemma axial_r_loop_move_ok : forall A (ax : AxisGeo A AxisDR) k b w h m c d, fits w h ->
  axial_fits k (co_r b) w h -> h + co_r b <= 2 -> ag_vec ax = hexr_vec ->
  In c (board w h (axial_cell (co_r b))) ->
  axial_move_coord_lew k (axial_move_r k) (co_r b) w h m c d
    = Ok (geo_step (axial_r_loop_geometry ax k b w h) c d).
Proof.
  intros A ax k b w h m [r q] d F Hf Hh Hv Hin. pose proof (co_r_range b) as Hco.
  pose proof (axial_move_r_ok k (co_r b) w h m r q d Hco F Hf Hin) as Hm.
  apply in_axial in Hin. unfold half_row in Hin.
  destruct d; (rewrite (axial_lew_ok _ k _ (co_r b) w h m _ _ _ _ Hco F Hh Hf Hm) by lia);
    split_ifs; fin; try apply axial_r_loop_inj;
    cbn -[Z.mul Z.modulo Z.add Z.sub Z.opp same_place axial_r_pos]; rewrite Hv;
    first [axloop_some 0 | axloop_some 1 | axloop_some (-1) | axloop_none].
Qed.

Lemma axial_q_loop_move_ok : forall A (ax : AxisGeo A AxisDQ) k b w h m c d, fits w h ->
  axial_fits k (co_q b) w h -> h + co_q b <= 2 -> ag_vec ax = hexq_vec ->
  In c (board w h (axial_cell (co_q b))) ->
  axial_move_coord_lew k (axial_move_q k) (co_q b) w h m c d
    = Ok (geo_step (axial_q_loop_geometry ax k b w h) c d).
Proof.
  intros A ax k b w h m [r q] d F Hf Hh Hv Hin. pose proof (co_q_range b) as Hco.
  pose proof (axial_move_q_ok k (co_q b) w h m r q d Hco F Hf Hin) as Hm.
  apply in_axial in Hin. unfold half_row in Hin.
  destruct d; (rewrite (axial_lew_ok _ k _ (co_q b) w h m _ _ _ _ Hco F Hh Hf Hm) by lia);
    split_ifs; fin; try apply axial_q_loop_inj;
    cbn -[Z.mul Z.modulo Z.add Z.sub Z.opp same_place axial_q_pos]; rewrite Hv;
    first [axloop_some 0 | axloop_some 1 | axloop_some (-1) | axloop_none].
Qed.

(** ** All supported shapes *)

Lemma range_check_ok : forall w h m x y, 0 <= x < w -> 0 <= y < h ->
  range_check w h m (x, y) = Ok (Some (x, y)).
Proof.
  intros. unfold range_check. cbn [fst snd].
  replace ((x <? w) && (y <? h)) with true by lia. reflexivity.
Qed.

Lemma refines_rect : forall A D (G : Geometry A D) (s : Shape Cell A D) w h m,
  fits w h -> sh_horizontal s = w -> sh_vertical s = h ->
  geo_nodes G = board w h (fun x y => (x, y)) ->
  AxisOK m (sh_axis s) (geo_ax G) -> sh_eqb s = pair_eqb ->
  sh_to_offset s = range_check w h ->
  (sh_to_offset_unchecked s = (fun _ c => Ok c) \/
   sh_to_offset_unchecked s = default_to_offset_unchecked (range_check w h)) ->
  sh_offset_to_coordinate s = (fun _ o => Ok o) ->
  (forall c d, In c (geo_nodes G) -> sh_move_coord s m c d = Ok (geo_step G c d)) ->
  sh_move_coord_unchecked s = default_move_coord_unchecked (sh_move_coord s) ->
  geo_coord G = (fun c => 0 <= fst c < 2 ^ 64 /\ 0 <= snd c < 2 ^ 64) ->
  geo_extreme G = (fun _ => False) ->
  Refines m s G (fun x y => (x, y)).
Proof.
  intros A D G s w h m F Hw Hh Hn Hax Eeq Eto Eun Eco Emv Emu Ec Ex.
  subst w h.
  constructor;
    [assumption | assumption | | assumption | | | | assumption | | | |].
  - intros a b. rewrite Eeq. apply pair_eqb_eq.
  - intros. rewrite Eco. reflexivity.
  - intros. rewrite Eto. apply range_check_ok; auto.
  - intros. destruct Eun as [-> | ->]; [reflexivity|].
    unfold default_to_offset_unchecked. rewrite range_check_ok by auto. reflexivity.
  - intros. rewrite Emu. apply default_move_coord_unchecked_ok. rewrite Emv by auto.
    f_equal; assumption.
  - intros [x y] Hin. rewrite Hn in Hin. apply in_rect in Hin. rewrite Ec, Ex.
    apply fits_bounds in F. rewrite IMAX1_val in F. cbn [fst snd]. lia.
  - intros [x y] Hc Hnin _. rewrite Ec in Hc. rewrite Hn, in_rect in Hnin. rewrite Eto.
    unfold range_check. cbn [fst snd] in *.
    replace ((x <? sh_horizontal s) && (y <? sh_vertical s)) with false by lia. reflexivity.
  - intros c _ Hx. rewrite Ex in Hx. destruct Hx.
Qed.

Lemma axial_extreme_ok : forall co w h m r q,
  0 <= co <= 1 -> 0 <= w < IMAX1 -> 0 <= h < IMAX1 -> 0 <= q < h -> r < IMAX1 ->
  IMAX1 <= r + half_row co q ->
  axial_to_offset false co w h m (r, q) =
    match m with Debug => Fail FPanic | Release => Ok None end.
Proof.
  intros co w h m r q Hco Hw Hh Hq Hr Hx. unfold axial_to_offset, axial_shift, half_row in *.
  rewrite IMAX1_val in *.
  rewrite as_usize_nonneg by (rewrite USIZE_val; lia).
  replace (q <? h) with true by lia.
  rewrite usize_add_ok by (rewrite USIZE_val; lia). cbn [bind].
  rewrite as_isize_small by (rewrite IMAX1_val; lia).
  unfold isize_add, wrap_isize. rewrite IMAX1_val.
  destruct (_ && _) eqn:Eb; [exfalso; lia|].
  destruct m; [reflexivity|]. cbn [bind]. rewrite Z.mod_small by (rewrite USIZE_val; lia).
  unfold as_isize. replace (r + (q + co) / 2 <? IMAX1) with false by (rewrite IMAX1_val; lia).
  rewrite as_usize_neg by (rewrite USIZE_val; lia).
  replace (r + (q + co) / 2 - USIZE + USIZE <? w) with false by lia. reflexivity.
Qed.

Lemma axial_coord_isize : forall k co w h c, axial_fits k co w h -> axial_coord k c ->
  - IMAX1 <= fst c < IMAX1 /\ - IMAX1 <= snd c < IMAX1.
Proof.
  intros [|lo hi] co w h [r q] Hf Hc; unfold axial_fits, axial_coord in *; cbn [fst snd] in *;
    rewrite IMAX1_val; lia.
Qed.

Lemma refines_axial : forall A D (G : Geometry A D) (s : Shape Cell A D) k co w h m,
  0 <= co <= 1 -> fits w h -> axial_fits k co w h ->
  sh_horizontal s = w -> sh_vertical s = h ->
  geo_nodes G = board w h (axial_cell co) ->
  AxisOK m (sh_axis s) (geo_ax G) -> sh_eqb s = pair_eqb ->
  sh_to_offset s = axial_to_offset false co w h ->
  sh_to_offset_unchecked s = axial_to_offset_unchecked false co ->
  sh_offset_to_coordinate s = axial_offset_to_coordinate k false co ->
  (forall c d, In c (geo_nodes G) -> sh_move_coord s m c d = Ok (geo_step G c d)) ->
  (forall c d c', In c (geo_nodes G) -> sh_move_coord s m c d = Ok (Some c') ->
    sh_move_coord_unchecked s m c d = Ok c') ->
  geo_coord G = axial_coord k ->
  geo_extreme G = (fun c => 0 <= snd c < h /\ 2 ^ 63 <= fst c + (snd c + co) / 2) ->
  Refines m s G (axial_cell co).
Proof.
  intros A D G s k co w h m Hco F Hf Hw Hh Hn Hax Eeq Eto Eun Ecc Emv Emu Ec Ex.
  pose proof (fits_bounds _ _ F) as B.
  subst w h.
  constructor;
    [assumption | assumption | | assumption | | | | assumption | | | |].
  - intros a b. rewrite Eeq. apply pair_eqb_eq.
  - intros. rewrite Ecc. eapply axial_coordinate_ok; eauto; lia.
  - intros x y Hx Hy. rewrite Eto. unfold axial_cell. rewrite axial_to_offset_ok;
      unfold half_row; try (rewrite IMAX1_val in *; lia).
    replace (x - (y + co) / 2 + (y + co) / 2) with x by lia.
    replace ((0 <=? y) && (y <? sh_vertical s) && (0 <=? x) && (x <? sh_horizontal s))
      with true by lia. reflexivity.
  - intros x y Hx Hy. rewrite Eun. unfold axial_cell. rewrite axial_to_offset_unchecked_ok;
      unfold half_row; try (rewrite IMAX1_val in *; lia).
    do 2 f_equal. lia.
  - intros c d c' Hin Hs. apply Emu; auto. rewrite Emv by auto.
    f_equal; assumption.
  - intros [r q] Hin. rewrite Hn in Hin. apply in_axial in Hin. rewrite Ec, Ex.
    unfold half_row in Hin. rewrite IMAX1_val in B. cbn [fst snd].
    unfold axial_coord, axial_fits in *. destruct k; cbn [fst snd]; lia.
  - intros [r q] Hc Hnin Hx. rewrite Ec in Hc.
    pose proof (axial_coord_isize _ _ _ _ _ Hf Hc) as Hi. cbn [fst snd] in Hi.
    rewrite Hn, in_axial in Hnin. rewrite Ex in Hx. rewrite Eto. cbn [fst snd] in Hx.
    assert (Hcase : (0 <= q < sh_vertical s /\ IMAX1 <= r + half_row co q) \/
       (0 <= q < sh_vertical s -> r + half_row co q < IMAX1)) by lia.
    destruct Hcase as [[Hq He] | He].
    + rewrite axial_extreme_ok by lia. destruct m; [|reflexivity].
      exfalso. apply (Hx eq_refl). unfold half_row in He. rewrite IMAX1_val in He. lia.
    + rewrite axial_to_offset_ok; try lia.
      2: { intros Hq. split; [|auto]. unfold half_row. rewrite IMAX1_val in *. lia. }
      destruct (_ && _) eqn:Eb; [|reflexivity]. exfalso. lia.
  - intros [r q] Hc Hx ->. rewrite Ec in Hc.
    pose proof (axial_coord_isize _ _ _ _ _ Hf Hc) as Hi. cbn [fst snd] in Hi.
    rewrite Ex in Hx. cbn [fst snd] in Hx. rewrite Eto.
    rewrite axial_extreme_ok; try lia; [reflexivity|].
    unfold half_row. rewrite IMAX1_val. lia.
Qed.

Lemma axial_unchecked : forall D (mv : mode -> Z * Z -> D -> outcome (Z * Z)) flat co w h m c d c',
  axial_move_coord mv flat co w h m c d = Ok (Some c') -> mv m c d = Ok c'.
Proof.
  intros D mv flat co w h m c d c' H. unfold axial_move_coord in H.
  apply bind_ok in H. destruct H as (c1 & H1 & H).
  apply bind_ok in H. destruct H as (o & H2 & H). destruct o; congruence.
Qed.

Ltac rect A B :=
  eapply refines_rect; try eassumption; try reflexivity;
  [ apply A | first [left; reflexivity | right; reflexivity] | intros; apply B; auto ].
Ltac axial A B :=
  eapply refines_axial; try eassumption; try reflexivity;
  [ first [apply co_r_range | apply co_q_range] | apply A
  | intros; apply B; auto
  | intros; first [eapply axial_unchecked; eassumption
                  | apply default_move_coord_unchecked_ok; assumption] ].

Lemma co_r_convert : forall b, convert_offset (r_is_even b) = co_r b.
Proof. intros []; reflexivity. Qed.
Lemma co_q_convert : forall b, convert_offset (q_is_even b) = co_q b.
Proof. intros []; reflexivity. Qed.
Lemma r_flat : forall b, r_is_flat_top b = false. Proof. intros []; reflexivity. Qed.
Lemma q_flat : forall b, q_is_flat_top b = false. Proof. intros []; reflexivity. Qed.

Ltac unfold_axial :=
  unfold hex_axial_r, hex_axial_r_dir, hex_axial_r_lew, hex_axial_r_dir_lew,
    hex_axial_q, hex_axial_q_dir, hex_axial_q_lew, hex_axial_q_dir_lew;
  try rewrite r_flat; try rewrite q_flat; unfold axial_shape, axial_lew_shape;
  try rewrite co_r_convert; try rewrite co_q_convert.

Theorem supported_refines : forall A D (s : Shape Cell A D) G m,
  Supported s G -> exists cell, Refines m s G cell.
Proof.
  intros A D s G m H. destruct H;
    [ exists (fun x y => (x, y)) .. | | | | | | | | ];
    try (exists (axial_cell (co_r b)));
    try (exists (axial_cell (co_q b)));
    unfold_axial.
  - rect square_axis_ok square_move_ok.
  - rect dsquare_axis_ok square_move_ok.
  - rect diagonal_axis_ok diagonal_move_ok.
  - rect ddiagonal_axis_ok diagonal_move_ok.
  - rect hexr_axis_ok offset_r_move_ok.
  - rect dhexr_axis_ok offset_r_move_ok.
  - rect hexr_axis_ok offset_r_loop_move_ok.
  - axial hexr_axis_ok axial_r_move_ok.
  - axial dhexr_axis_ok axial_r_move_ok.
  - axial hexq_axis_ok axial_q_move_ok.
  - axial dhexq_axis_ok axial_q_move_ok.
  - axial hexr_axis_ok axial_r_loop_move_ok.
  - axial dhexr_axis_ok axial_r_loop_move_ok.
  - axial hexq_axis_ok axial_q_loop_move_ok.
  - axial dhexq_axis_ok axial_q_loop_move_ok.
Qed.

Lemma placed_regular : forall A D (s : Shape Cell A D) G pos period,
  placed G pos period ->
  sh_is_neighbor s = default_is_neighbor (sh_axis s) (sh_eqb s) (sh_move_coord s) ->
  Regular s G.
Proof.
  intros A D s G pos period PL Hn. constructor; auto.
  - apply (placed_in PL).
  - intros. eapply (placed_sym PL); eauto.
Qed.

Theorem supported_regular : forall A D (s : Shape Cell A D) G, Supported s G -> Regular s G.
Proof.
  intros A D s G H. destruct H; (eapply placed_regular; [|reflexivity]).
  - apply square_inj.
  - apply square_inj.
  - apply square_inj.
  - apply square_inj.
  - apply offset_r_inj.
  - apply offset_r_inj.
  - apply offset_r_loop_inj.
  - apply axial_r_inj.
  - apply axial_r_inj.
  - apply axial_q_inj.
  - apply axial_q_inj.
  - apply axial_r_loop_inj.
  - apply axial_r_loop_inj.
  - apply axial_q_loop_inj.
  - apply axial_q_loop_inj.
Qed.
