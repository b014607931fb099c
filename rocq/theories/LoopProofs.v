(** * LoopProofs: boards looped from east to west; layouts that differ from their
    documentation. *)

From Verif Require Import Machine Store Axes Shapes Lattice Spec Spec2 Basics AxisProofs
  GeoProofs ShapeProofs StoreProofs.
From Coq Require Import ZifyBool ZifyNat.
Ltac Zify.zify_post_hook ::= Z.div_mod_to_equations.

(** ** Offset coordinates *)

Lemma mod_up : forall x w, 0 <= x < w -> (x + 1) mod w = if x + 1 <? w then x + 1 else 0.
Proof.
  intros x w H. destruct (x + 1 <? w) eqn:E; [apply Z.mod_small; lia|].
  replace (x + 1) with w by lia. apply Z.mod_same. lia.
Qed.
Lemma mod_down : forall x w, 0 <= x < w -> (x - 1) mod w = if 1 <=? x then x - 1 else w - 1.
Proof.
  intros x w H. destruct (1 <=? x) eqn:E; [apply Z.mod_small; lia|].
  replace (x - 1) with (w - 1 + (-1) * w) by lia. rewrite Z.mod_add by lia.
  apply Z.mod_small. lia.
Qed.

Lemma loop_e : forall m b w h x y, fits w h -> 0 <= x < w -> 0 <= y < h ->
  sh_move_coord (hex_offset_r_lew b w h) m (x, y) RE = Ok (Some ((x + 1) mod w, y)).
Proof.
  intros m b w h x y F Hx Hy. apply fits_bounds in F. rewrite IMAX1_val in F.
  cbn [hex_offset_r_lew offset_shape sh_move_coord]. unfold offset_move_r_lew.
  rewrite mod_up by auto. moves; reflexivity.
Qed.
Lemma loop_w : forall m b w h x y, fits w h -> 0 <= x < w -> 0 <= y < h ->
  sh_move_coord (hex_offset_r_lew b w h) m (x, y) RW = Ok (Some ((x - 1) mod w, y)).
Proof.
  intros m b w h x y F Hx Hy. apply fits_bounds in F. rewrite IMAX1_val in F.
  cbn [hex_offset_r_lew offset_shape sh_move_coord]. unfold offset_move_r_lew.
  rewrite mod_down by auto. moves; reflexivity.
Qed.

Lemma walk_e : forall m b w h y n x, fits w h -> 0 <= x < w -> 0 <= y < h ->
  walk (hex_offset_r_lew b w h) m (x, y) (repeat RE n)
    = Ok (Some ((x + Z.of_nat n) mod w, y)).
Proof.
  intros m b w h y n. induction n; intros x F Hx Hy.
  - cbn [repeat walk]. rewrite Z.mod_small by lia. do 3 f_equal. lia.
  - cbn [repeat walk]. rewrite loop_e by auto. cbn [bind].
    rewrite IHn; auto; [|apply Z.mod_pos_bound; lia].
    do 3 f_equal. rewrite Zplus_mod_idemp_l. f_equal. lia.
Qed.

Lemma c28 : forall m b w h x y, fits w h -> 0 <= x < w -> 0 <= y < h ->
  let s := hex_offset_r_lew b w h in
  sh_move_coord s m (x, y) RE = Ok (Some ((x + 1) mod w, y)) /\
  sh_move_coord s m (x, y) RW = Ok (Some ((x - 1) mod w, y)) /\
  walk s m (x, y) [RE; RW] = Ok (Some (x, y)) /\
  walk s m (x, y) [RW; RE] = Ok (Some (x, y)) /\
  walk s m (x, y) (repeat RE (Z.to_nat w)) = Ok (Some (x, y)) /\
  (forall d, d = RNE \/ d = RNW ->
    if y =? h - 1 then sh_move_coord s m (x, y) d = Ok None
    else exists x', 0 <= x' < w /\ sh_move_coord s m (x, y) d = Ok (Some (x', y + 1))) /\
  (forall d, d = RSE \/ d = RSW ->
    if y =? 0 then sh_move_coord s m (x, y) d = Ok None
    else exists x', 0 <= x' < w /\ sh_move_coord s m (x, y) d = Ok (Some (x', y - 1))).
Proof.
  intros m b w h x y F Hx Hy s. subst s.
  assert (W1 : 0 <= (x + 1) mod w < w) by (apply Z.mod_pos_bound; lia).
  assert (W2 : 0 <= (x - 1) mod w < w) by (apply Z.mod_pos_bound; lia).
  split; [apply loop_e; auto|]. split; [apply loop_w; auto|].
  split.
  { cbn [walk]. rewrite loop_e by auto. cbn [bind]. rewrite loop_w by auto. cbn [bind].
    do 3 f_equal. rewrite Zminus_mod_idemp_l. rewrite Z.mod_small by lia. lia. }
  split.
  { cbn [walk]. rewrite loop_w by auto. cbn [bind]. rewrite loop_e by auto. cbn [bind].
    do 3 f_equal. rewrite Zplus_mod_idemp_l. rewrite Z.mod_small by lia. lia. }
  split.
  { rewrite walk_e by auto. do 3 f_equal. rewrite Z2Nat.id by lia.
    replace (x + w) with (x + 1 * w) by lia. rewrite Z.mod_add by lia. apply Z.mod_small; lia. }
  apply fits_bounds in F. rewrite IMAX1_val in F.
  cbn [hex_offset_r_lew offset_shape sh_move_coord]. unfold offset_move_r_lew, parity_is.
  split; intros d [-> | ->]; cbn [snd]; destruct (y mod 2 =? r_flag b) eqn:P.
  1-4: destruct (y =? h - 1) eqn:Ey; moves; try reflexivity; try lia;
    eexists; (split; [|reflexivity]); lia.
  all: destruct (y =? 0) eqn:Ey; moves; try reflexivity; try lia;
    eexists; (split; [|reflexivity]); lia.
Qed.

(** ** Axial coordinates *)

(** The exact result of every move of the looped axial shapes, as an offset. *)
Lemma axial_loop_exact : forall D k mv co w h m (c : Z * Z) (d : D) r q,
  0 <= co <= 1 -> fits w h -> axial_fits k co w h ->
  mv m c d = Ok (r, q) -> -1 <= q <= h -> 0 < w ->
  (0 <= q < h -> -1 <= r + half_row co q <= w) ->
  axial_move_coord_lew k mv co w h m c d =
    Ok (if (0 <=? q) && (q <? h)
        then Some (if r + half_row co q <? 0 then r + w
                   else if w + half_row co q <=? r then r - w else r, q)
        else None).
Proof. exact axial_lew_any. Qed.

(** Row [y] of an axial board reaches from r = - shift to r = w - 1 - shift. *)
Lemma axial_e_last : forall k b w h m y,
  fits w h -> axial_fits k (co_r b) w h -> 0 < w -> 0 <= y < h -> 2 <= y + co_r b ->
  let s := hex_axial_r_lew k b w h in
  exists c c', sh_offset_to_coordinate s m (w - 1, y) = Ok c /\
    sh_to_offset s m c = Ok (Some (w - 1, y)) /\
    sh_move_coord s m c RE = Ok (Some c') /\ sh_to_offset s m c' = Ok None.
Proof.
  intros k b w h m y F Hf Hw Hy Hb s. subst s. pose proof (co_r_range b) as Hco.
  pose proof (fits_bounds _ _ F) as B. rewrite IMAX1_val in B.
  unfold_axial. cbn [sh_offset_to_coordinate sh_to_offset sh_move_coord].
  assert (Hin : In (axial_cell (co_r b) (w - 1) y) (board w h (axial_cell (co_r b)))).
  { apply in_board. exists (w - 1), y. repeat split; lia. }
  exists (axial_cell (co_r b) (w - 1) y), (w - (y + co_r b) / 2, y).
  split; [eapply axial_coordinate_ok; eauto; rewrite ?IMAX1_val; lia|].
  unfold axial_cell in *. split.
  { rewrite axial_to_offset_ok; unfold half_row; rewrite ?IMAX1_val; try lia.
    replace (_ && _) with true by lia. do 3 f_equal. lia. }
  pose proof (axial_move_r_ok k (co_r b) w h m _ _ RE Hco F Hf Hin) as Hm. cbn [fst snd] in Hm.
  split.
  - erewrite axial_lew_any; try eassumption; unfold half_row; try lia.
    replace ((0 <=? y) && (y <? h)) with true by lia.
    replace (_ <? 0) with false by lia.
    replace (w + (y + co_r b) / 2 <=? _) with false by lia. do 3 f_equal. lia.
  - rewrite axial_to_offset_ok; unfold half_row; rewrite ?IMAX1_val; try lia.
    replace (_ && _) with false by lia. reflexivity.
Qed.
Lemma axial_e_last_q : forall k b w h m y,
  fits w h -> axial_fits k (co_q b) w h -> 0 < w -> 0 <= y < h -> 2 <= y + co_q b ->
  let s := hex_axial_q_lew k b w h in
  exists c c', sh_offset_to_coordinate s m (w - 1, y) = Ok c /\
    sh_to_offset s m c = Ok (Some (w - 1, y)) /\
    sh_move_coord s m c QNE = Ok (Some c') /\ sh_to_offset s m c' = Ok None.
Proof.
  intros k b w h m y F Hf Hw Hy Hb s. subst s. pose proof (co_q_range b) as Hco.
  pose proof (fits_bounds _ _ F) as B. rewrite IMAX1_val in B.
  unfold_axial. cbn [sh_offset_to_coordinate sh_to_offset sh_move_coord].
  assert (Hin : In (axial_cell (co_q b) (w - 1) y) (board w h (axial_cell (co_q b)))).
  { apply in_board. exists (w - 1), y. repeat split; lia. }
  exists (axial_cell (co_q b) (w - 1) y), (w - (y + co_q b) / 2, y).
  split; [eapply axial_coordinate_ok; eauto; rewrite ?IMAX1_val; lia|].
  unfold axial_cell in *. split.
  { rewrite axial_to_offset_ok; unfold half_row; rewrite ?IMAX1_val; try lia.
    replace (_ && _) with true by lia. do 3 f_equal. lia. }
  pose proof (axial_move_q_ok k (co_q b) w h m _ _ QNE Hco F Hf Hin) as Hm. cbn [fst snd] in Hm.
  split.
  - erewrite axial_lew_any; try eassumption; unfold half_row; try lia.
    replace ((0 <=? y) && (y <? h)) with true by lia.
    replace (_ <? 0) with false by lia.
    replace (w + (y + co_q b) / 2 <=? _) with false by lia. do 3 f_equal. lia.
  - rewrite axial_to_offset_ok; unfold half_row; rewrite ?IMAX1_val; try lia.
    replace (_ && _) with false by lia. reflexivity.
Qed.

(** Moves to the west are wrapped correctly whatever the number of rows. *)
Lemma axial_west : forall k b w h m x y d,
  fits w h -> axial_fits k (co_r b) w h -> 0 <= x < w -> 0 <= y < h ->
  d = RW \/ d = RSW \/ d = RNW ->
  let s := hex_axial_r_lew k b w h in
  exists c t, sh_offset_to_coordinate s m (x, y) = Ok c /\
    sh_move_coord s m c d = Ok t /\
    let y' := y + (match d with RW => 0 | RSW => -1 | _ => 1 end) in
    match t with
    | Some c' => exists x', sh_to_offset s m c' = Ok (Some (x', y')) /\ 0 <= x' < w /\
        (2 * x' + (y' + co_r b) mod 2
           - (2 * x + (y + co_r b) mod 2 + fst (hexr_vec d))) mod (2 * w) = 0
    | None => y' = -1 \/ y' = h
    end.
Proof.
  intros k b w h m x y d F Hf Hx Hy Hd s. subst s. pose proof (co_r_range b) as Hco.
  pose proof (fits_bounds _ _ F) as B. rewrite IMAX1_val in B.
  unfold_axial. cbn [sh_offset_to_coordinate sh_to_offset sh_move_coord].
  assert (Hin : In (axial_cell (co_r b) x y) (board w h (axial_cell (co_r b)))).
  { apply in_board. exists x, y. repeat split; lia. }
  exists (axial_cell (co_r b) x y).
  pose proof (axial_move_r_ok k (co_r b) w h m _ _ d Hco F Hf Hin) as Hm. cbn [fst snd] in Hm.
  unfold axial_cell in *.
  destruct Hd as [-> | [-> | ->]]; eexists;
    (split; [eapply (axial_coordinate_ok k (co_r b) w h); eauto; rewrite ?IMAX1_val; lia|]);
    (split; [erewrite axial_lew_any; try eassumption;
             [reflexivity|lia|lia|unfold half_row; lia]|]);
    clear Hm Hin; cbv zeta; unfold half_row; cbn [hexr_vec fst];
    destruct ((0 <=? _) && (_ <? h)) eqn:Eq; try lia;
    match goal with |- context [if ?a then _ else _] => destruct a eqn:E1 end;
    try match goal with |- context [if ?a then _ else _] => destruct a eqn:E2; [lia|] end;
    (rewrite axial_to_offset_ok; unfold half_row; rewrite ?IMAX1_val; try lia);
    (replace (_ && _) with true by lia); eexists;
    (split; [apply f_equal; apply f_equal; apply pair_eq; [reflexivity|lia]|]);
    (split; [lia|]);
    match goal with |- ?e mod _ = 0 =>
      first [ replace e with 0 by lia; apply Z.mod_0_l; lia
            | replace e with (1 * (2 * w)) by lia; apply Z.mod_mul; lia ] end.
Qed.

(** ** Every move of the looped axial boards *)

Lemma axial_loop_r_exact : forall k b w h m c d t,
  fits w h -> axial_fits k (co_r b) w h -> In c (board w h (axial_cell (co_r b))) ->
  axial_r_pos t = vadd (axial_r_pos c) (hexr_vec d) ->
  sh_move_coord (hex_axial_r_lew k b w h) m c d = Ok (axial_loop_step (co_r b) w h t).
Proof.
  intros k b w h m [r q] d [tr tq] F Hf Hin Ht. pose proof (co_r_range b) as Hco.
  pose proof (fits_bounds _ _ F) as B. rewrite IMAX1_val in B.
  unfold_axial. cbn [sh_move_coord].
  pose proof (axial_move_r_ok k (co_r b) w h m _ _ d Hco F Hf Hin) as Hm.
  apply in_axial in Hin. unfold half_row in Hin.
  unfold axial_loop_step, axial_r_pos, vadd in *. cbn [fst snd] in *.
  destruct d; cbn [hexr_vec fst snd] in Ht; apply pair_equal_spec in Ht; destruct Ht as [Ht1 Ht2];
    (erewrite axial_lew_any; [|eassumption..|lia|lia|unfold half_row; lia]);
    unfold half_row;
    repeat match goal with |- context [if ?x then _ else _] => destruct x eqn:? end;
    try lia; try reflexivity; apply f_equal; apply f_equal; apply pair_eq; lia.
Qed.
Lemma axial_loop_q_exact : forall k b w h m c d t,
  fits w h -> axial_fits k (co_q b) w h -> In c (board w h (axial_cell (co_q b))) ->
  axial_q_pos t = vadd (axial_q_pos c) (hexq_vec d) ->
  sh_move_coord (hex_axial_q_lew k b w h) m c d = Ok (axial_loop_step (co_q b) w h t).
Proof.
  intros k b w h m [r q] d [tr tq] F Hf Hin Ht. pose proof (co_q_range b) as Hco.
  pose proof (fits_bounds _ _ F) as B. rewrite IMAX1_val in B.
  unfold_axial. cbn [sh_move_coord].
  pose proof (axial_move_q_ok k (co_q b) w h m _ _ d Hco F Hf Hin) as Hm.
  apply in_axial in Hin. unfold half_row in Hin.
  unfold axial_loop_step, axial_q_pos, vadd in *. cbn [fst snd] in *.
  destruct d; cbn [hexq_vec fst snd] in Ht; apply pair_equal_spec in Ht; destruct Ht as [Ht1 Ht2];
    (erewrite axial_lew_any; [|eassumption..|lia|lia|unfold half_row; lia]);
    unfold half_row;
    repeat match goal with |- context [if ?x then _ else _] => destruct x eqn:? end;
    try lia; try reflexivity; apply f_equal; apply f_equal; apply pair_eq; lia.
Qed.
