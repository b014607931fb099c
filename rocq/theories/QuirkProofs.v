(** * QuirkProofs: shapes and arguments for which the crate does not do what one expects. *)

From Verif Require Import Machine Store Axes Shapes Lattice Spec Spec2 Basics AxisProofs
  GeoProofs ShapeProofs StoreProofs LoopProofs.
From Coq Require Import ZifyBool ZifyNat.
Ltac Zify.zify_post_hook ::= Z.div_mod_to_equations.

Lemma Ok_inj : forall A (x y : A), Ok x = Ok y -> x = y.
Proof. congruence. Qed.

(** ** Axial loops (C29) *)

Lemma axial_pos_shift : forall co x y k, axial_cell co (x + k) y = (fst (axial_cell co x y) + k, y).
Proof. intros. unfold axial_cell. cbn [fst]. apply pair_eq; lia. Qed.

Lemma axial_loop_w : forall k b w h m x y, fits w h -> axial_fits k (co_r b) w h ->
  0 <= x < w -> 0 <= y < h ->
  sh_move_coord (hex_axial_r_lew k b w h) m (axial_cell (co_r b) x y) RW
    = Ok (Some (axial_cell (co_r b) ((x - 1) mod w) y)).
Proof.
  intros k b w h m x y F Hf Hx Hy.
  rewrite (axial_loop_r_exact k b w h m _ RW (axial_cell (co_r b) (x - 1) y)); auto.
  - unfold axial_loop_step, axial_cell. cbn [fst snd]. rewrite mod_down by auto.
    replace ((0 <=? y) && (y <? h)) with true by lia.
    destruct (1 <=? x) eqn:E.
    + replace (_ =? -1) with false by lia. replace (_ =? w) with false by lia. reflexivity.
    + replace (_ =? -1) with true by lia. apply f_equal. apply f_equal. apply pair_eq; lia.
  - apply in_board. exists x, y. repeat split; lia.
  - unfold axial_r_pos, vadd, axial_cell. cbn [fst snd hexr_vec]. apply pair_eq; lia.
Qed.

Lemma axial_loop_e : forall k b w h m x y, fits w h -> axial_fits k (co_r b) w h ->
  0 <= x < w -> 0 <= y < h -> x + 1 < w \/ y + co_r b < 2 ->
  sh_move_coord (hex_axial_r_lew k b w h) m (axial_cell (co_r b) x y) RE
    = Ok (Some (axial_cell (co_r b) ((x + 1) mod w) y)).
Proof.
  intros k b w h m x y F Hf Hx Hy Hc.
  rewrite (axial_loop_r_exact k b w h m _ RE (axial_cell (co_r b) (x + 1) y)); auto.
  - unfold axial_loop_step, axial_cell. cbn [fst snd]. rewrite mod_up by auto.
    replace ((0 <=? y) && (y <? h)) with true by lia.
    replace (_ =? -1) with false by lia.
    destruct (x + 1 <? w) eqn:E.
    + replace (_ =? w) with false by lia. reflexivity.
    + replace (_ =? w) with true by lia. replace (y + co_r b <? 2) with true by lia.
      cbn [andb]. apply f_equal. apply f_equal. apply pair_eq; lia.
  - apply in_board. exists x, y. repeat split; lia.
  - unfold axial_r_pos, vadd, axial_cell. cbn [fst snd hexr_vec]. apply pair_eq; lia.
Qed.

Lemma axial_walk_w : forall k b w h m y n x, fits w h -> axial_fits k (co_r b) w h ->
  0 <= x < w -> 0 <= y < h ->
  walk (hex_axial_r_lew k b w h) m (axial_cell (co_r b) x y) (repeat RW n)
    = Ok (Some (axial_cell (co_r b) ((x - Z.of_nat n) mod w) y)).
Proof.
  intros k b w h m y n. induction n; intros x F Hf Hx Hy.
  - cbn [repeat walk]. rewrite Z.mod_small by lia. do 3 f_equal. lia.
  - cbn [repeat walk]. rewrite axial_loop_w by auto. cbn [bind].
    rewrite IHn; auto; [|apply Z.mod_pos_bound; lia].
    do 3 f_equal. rewrite Zminus_mod_idemp_l. f_equal. lia.
Qed.

Lemma axial_walk_e : forall k b w h m y n x, fits w h -> axial_fits k (co_r b) w h ->
  0 <= x < w -> 0 <= y < h -> y + co_r b < 2 ->
  walk (hex_axial_r_lew k b w h) m (axial_cell (co_r b) x y) (repeat RE n)
    = Ok (Some (axial_cell (co_r b) ((x + Z.of_nat n) mod w) y)).
Proof.
  intros k b w h m y n. induction n; intros x F Hf Hx Hy Hb.
  - cbn [repeat walk]. rewrite Z.mod_small by lia. do 3 f_equal. lia.
  - cbn [repeat walk]. rewrite axial_loop_e by auto. cbn [bind].
    rewrite IHn; auto; [|apply Z.mod_pos_bound; lia].
    do 3 f_equal. rewrite Zplus_mod_idemp_l. f_equal. lia.
Qed.

Lemma c29_around : forall k b w h m x y, fits w h -> axial_fits k (co_r b) w h ->
  0 <= x < w -> 0 <= y < h ->
  let s := hex_axial_r_lew k b w h in let c := axial_cell (co_r b) x y in
  walk s m c (repeat RW (Z.to_nat w)) = Ok (Some c) /\
  (y + co_r b < 2 -> walk s m c (repeat RE (Z.to_nat w)) = Ok (Some c)).
Proof.
  intros k b w h m x y F Hf Hx Hy s c. subst s c. split; [|intros Hb].
  - rewrite axial_walk_w by auto. do 3 f_equal. rewrite Z2Nat.id by lia.
    replace (x - w) with (x + (-1) * w) by lia. rewrite Z.mod_add by lia. apply Z.mod_small; lia.
  - rewrite axial_walk_e by auto. do 3 f_equal. rewrite Z2Nat.id by lia.
    replace (x + w) with (x + 1 * w) by lia. rewrite Z.mod_add by lia. apply Z.mod_small; lia.
Qed.

(** ** The layout of axial boards with a Q base (C30) *)

Lemma axial_q_offset : forall k b w h m x y, fits w h -> axial_fits k (co_q b) w h ->
  0 <= x < w -> 0 <= y < h ->
  sh_offset_to_coordinate (hex_axial_q k b w h) m (x, y) = Ok (axial_cell (co_q b) x y) /\
  sh_to_offset (hex_axial_q k b w h) m (axial_cell (co_q b) x y) = Ok (Some (x, y)).
Proof.
  intros k b w h m x y F Hf Hx Hy. pose proof (co_q_range b) as Hco.
  pose proof (fits_bounds _ _ F) as B. rewrite IMAX1_val in B.
  unfold_axial. cbn [sh_offset_to_coordinate sh_to_offset].
  split; [eapply axial_coordinate_ok; eauto; rewrite ?IMAX1_val; lia|].
  unfold axial_cell. rewrite axial_to_offset_ok; unfold half_row; rewrite ?IMAX1_val; try lia.
  replace (_ && _) with true by lia. apply f_equal. apply f_equal. apply pair_eq; lia.
Qed.

Lemma c30_right : forall k b w h m x y, fits w h -> axial_fits k (co_q b) w h ->
  w + co_q b <= 2 -> h + co_q b <= 2 -> 0 <= x < w -> 0 <= y < h ->
  sh_offset_to_coordinate (hex_axial_q k b w h) m (x, y) = Ok (documented_cell (co_q b) x y).
Proof.
  intros k b w h m x y F Hf Hw Hh Hx Hy. rewrite (proj1 (axial_q_offset k b w h m x y F Hf Hx Hy)).
  pose proof (co_q_range b). apply f_equal. unfold axial_cell, documented_cell. apply pair_eq; lia.
Qed.

Lemma c30_wrong : forall k b w h m, fits w h -> axial_fits k (co_q b) w h ->
  1 <= w -> 1 <= h -> 3 <= w + co_q b \/ 3 <= h + co_q b ->
  exists x y, 0 <= x < w /\ 0 <= y < h /\
    sh_offset_to_coordinate (hex_axial_q k b w h) m (x, y) <> Ok (documented_cell (co_q b) x y).
Proof.
  intros k b w h m F Hf Hw Hh Hc. pose proof (co_q_range b) as Hco.
  destruct Hc as [Hc|Hc].
  - exists (2 - co_q b), 0. split; [lia|]. split; [lia|].
    rewrite (proj1 (axial_q_offset k b w h m (2 - co_q b) 0 F Hf ltac:(lia) ltac:(lia))).
    unfold axial_cell, documented_cell. intros H. apply Ok_inj in H. apply pair_inv in H. lia.
  - exists 0, (2 - co_q b). split; [lia|]. split; [lia|].
    rewrite (proj1 (axial_q_offset k b w h m 0 (2 - co_q b) F Hf ltac:(lia) ltac:(lia))).
    unfold axial_cell, documented_cell. intros H. apply Ok_inj in H. apply pair_inv in H. lia.
Qed.

(** The coordinate the documentation draws below the first row is not on the board. *)
Lemma c30_off : forall k b w h m, fits w h -> axial_fits k (co_q b) w h ->
  1 <= h -> 3 <= w + co_q b ->
  exists x, 0 <= x < w /\ sh_to_offset (hex_axial_q k b w h) m (documented_cell (co_q b) x 0) = Ok None.
Proof.
  intros k b w h m F Hf Hh Hw. pose proof (co_q_range b) as Hco.
  pose proof (fits_bounds _ _ F) as B. rewrite IMAX1_val in B.
  exists (2 - co_q b). split; [lia|]. unfold documented_cell. unfold_axial. cbn [sh_to_offset].
  rewrite axial_to_offset_ok; unfold half_row; rewrite ?IMAX1_val; try lia.
  replace (_ && _) with false by lia. reflexivity.
Qed.

(** ** Offset coordinates with a Q base (C31, C32) *)

Lemma c31_wrong : forall b w h m, fits w h -> 2 <= w -> 1 <= h ->
  exists c d c', In c (board w h (fun x y => (x, y))) /\
    sh_move_coord (hex_offset_q b w h) m c d = Ok (Some c') /\
    forall d', hexq_vec d' = vneg (hexq_vec d) ->
      In c' (board w h (fun x y => (x, y))) ->
      sh_move_coord (hex_offset_q b w h) m c' d' <> Ok (Some c).
Proof.
  intros b w h m F Hw Hh. cbn [hex_offset_q offset_shape sh_move_coord].
  destruct b.
  - destruct (Z.eq_dec h 1) as [->|Hh1].
    + exists (0, 0), QNE, (1, 1). split; [apply in_rect; lia|].
      rewrite offset_q_step by (auto; lia). cbn [q_flag]. cbv zeta.
      replace (0 mod 2 =? 0) with true by reflexivity. replace (0 + 1 <? w) with true by lia.
      split; [reflexivity|]. intros d' _ H. apply in_rect in H. lia.
    + exists (0, 1), QNE, (1, 1). split; [apply in_rect; lia|].
      rewrite offset_q_step by (auto; lia). cbn [q_flag]. cbv zeta.
      replace (1 mod 2 =? 0) with false by reflexivity. replace (0 + 1 <? w) with true by lia.
      split; [reflexivity|]. intros d' Hd' H. destruct d'; try discriminate Hd'.
      rewrite offset_q_step by (auto; lia). cbv zeta.
      replace (1 mod 2 =? 0) with false by reflexivity. discriminate.
  - exists (0, 0), QNE, (1, 0). split; [apply in_rect; lia|].
    rewrite offset_q_step by (auto; lia). cbn [q_flag]. cbv zeta.
    replace (0 mod 2 =? 1) with false by reflexivity. replace (0 + 1 <? w) with true by lia.
    split; [reflexivity|]. intros d' Hd' H. destruct d'; try discriminate Hd'.
    rewrite offset_q_step by (auto; lia). cbv zeta.
    replace (0 mod 2 =? 1) with false by reflexivity. discriminate.
Qed.

(** A move may leave the board. *)
Lemma c31_off : forall b w h m, fits w h -> 2 <= w -> 1 <= h -> h mod 2 <> co_q b ->
  sh_move_coord (hex_offset_q b w h) m (0, h - 1) QNE = Ok (Some (1, h)) /\
  sh_to_offset (hex_offset_q b w h) m (1, h) = Ok None.
Proof.
  intros b w h m F Hw Hh Hb. cbn [hex_offset_q offset_shape sh_move_coord sh_to_offset].
  rewrite offset_q_step by (auto; lia). cbv zeta.
  replace ((h - 1) mod 2 =? q_flag b) with true by (destruct b; cbn [co_q q_flag] in *; lia).
  replace (0 + 1 <? w) with true by lia. split.
  - apply f_equal. apply f_equal. apply pair_eq; lia.
  - unfold range_check. cbn [fst snd]. replace (h <? h) with false by lia.
    rewrite andb_false_r. reflexivity.
Qed.

Lemma c31_vertical : forall b w h m x y, fits w h -> 0 <= x < w -> 0 <= y < h ->
  sh_move_coord (hex_offset_q b w h) m (x, y) QN
    = Ok (if y =? h - 1 then None else Some (x, y + 1)) /\
  sh_move_coord (hex_offset_q b w h) m (x, y) QS
    = Ok (if y =? 0 then None else Some (x, y - 1)).
Proof.
  intros b w h m x y F Hx Hy. cbn [hex_offset_q offset_shape sh_move_coord].
  rewrite !offset_q_step by auto. cbv zeta.
  split; split_ifs; try reflexivity; lia.
Qed.

(** With at most one column nothing can go wrong. *)
Lemma c31_column : forall b w h m y d, fits w h -> w = 1 -> 0 <= y < h ->
  sh_move_coord (hex_offset_q b w h) m (0, y) d
    = Ok (match d with
          | QN => if y =? h - 1 then None else Some (0, y + 1)
          | QS => if y =? 0 then None else Some (0, y - 1)
          | _ => None end).
Proof.
  intros b w h m y d F -> Hy. cbn [hex_offset_q offset_shape sh_move_coord].
  rewrite !offset_q_step by (auto; lia). cbv zeta.
  destruct d; split_ifs; cbn [andb]; try reflexivity; lia.
Qed.

Lemma c32_wrong : forall b w h m x y, fits w h -> 0 <= x < w -> 0 <= y < h ->
  sh_move_coord (hex_offset_q_lew b w h) m (x, y) QN = Ok (Some ((x + 1) mod w, y)) /\
  sh_move_coord (hex_offset_q_lew b w h) m (x, y) QS = Ok (Some ((x - 1) mod w, y)).
Proof.
  intros b w h m x y F Hx Hy. cbn [hex_offset_q_lew offset_shape sh_move_coord].
  rewrite !offset_q_lew_step by auto. cbv zeta. rewrite mod_up, mod_down by auto.
  split; split_ifs; reflexivity.
Qed.

Lemma c32_reversible : forall b w h m, fits w h -> 2 <= w -> 2 <= h ->
  exists c d c', In c (board w h (fun x y => (x, y))) /\ In c' (board w h (fun x y => (x, y))) /\
    sh_move_coord (hex_offset_q_lew b w h) m c d = Ok (Some c') /\
    forall d', hexq_vec d' = vneg (hexq_vec d) ->
      sh_move_coord (hex_offset_q_lew b w h) m c' d' <> Ok (Some c).
Proof.
  intros b w h m F Hw Hh. cbn [hex_offset_q_lew offset_shape sh_move_coord].
  destruct b.
  - exists (0, 1), QNE, (1, 1). split; [apply in_rect; lia|]. split; [apply in_rect; lia|].
    rewrite offset_q_lew_step by (auto; lia). cbn [q_flag]. cbv zeta.
    replace (1 mod 2 =? 0) with false by reflexivity. replace (0 + 1 <? w) with true by lia.
    split; [reflexivity|]. intros d' Hd'. destruct d'; try discriminate Hd'.
    rewrite offset_q_lew_step by (auto; lia). cbv zeta.
    replace (1 mod 2 =? 0) with false by reflexivity. discriminate.
  - exists (0, 0), QNE, (1, 0). split; [apply in_rect; lia|]. split; [apply in_rect; lia|].
    rewrite offset_q_lew_step by (auto; lia). cbn [q_flag]. cbv zeta.
    replace (0 mod 2 =? 1) with false by reflexivity. replace (0 + 1 <? w) with true by lia.
    split; [reflexivity|]. intros d' Hd'. destruct d'; try discriminate Hd'.
    rewrite offset_q_lew_step by (auto; lia). cbv zeta.
    replace (0 mod 2 =? 1) with false by reflexivity. discriminate.
Qed.

(** Both shapes are still symmetric, with the wrong directions. *)
Lemma c31_symmetric : forall b w h m c d c', fits w h ->
  In c (board w h (fun x y => (x, y))) -> In c' (board w h (fun x y => (x, y))) ->
  sh_move_coord (hex_offset_q b w h) m c d = Ok (Some c') ->
  exists d', sh_move_coord (hex_offset_q b w h) m c' d' = Ok (Some c).
Proof.
  intros b w h m [x y] d [x' y'] F Hc Hc' Hm. apply in_rect in Hc. apply in_rect in Hc'.
  cbn [hex_offset_q offset_shape sh_move_coord] in *.
  rewrite offset_q_step in Hm by (auto; lia). apply Ok_inj in Hm. cbv zeta in Hm.
  exists (match d with
          | QN => QS | QS => QN
          | QNE => if y mod 2 =? q_flag b then QSW else QSE
          | QSE => if y mod 2 =? q_flag b then QNW else QNE
          | QSW => if y mod 2 =? q_flag b then QNW else QNE
          | QNW => if y mod 2 =? q_flag b then QSW else QSE
          end).
  rewrite offset_q_step by (auto; lia). cbv zeta. apply f_equal.
  destruct (y mod 2 =? q_flag b) eqn:P, d; cbn [negb orb andb] in *; split_ifs_in Hm;
    try discriminate Hm; injection Hm as <- <-; destruct b; cbn [q_flag] in *;
    split_ifs; try (apply f_equal; apply pair_eq; lia); lia.
Qed.
Lemma c32_symmetric : forall b w h m c d c', fits w h ->
  In c (board w h (fun x y => (x, y))) ->
  sh_move_coord (hex_offset_q_lew b w h) m c d = Ok (Some c') ->
  In c' (board w h (fun x y => (x, y))) /\
  exists d', sh_move_coord (hex_offset_q_lew b w h) m c' d' = Ok (Some c).
Proof.
  intros b w h m [x y] d [x' y'] F Hc Hm. apply in_rect in Hc.
  cbn [hex_offset_q_lew offset_shape sh_move_coord] in *.
  rewrite offset_q_lew_step in Hm by (auto; lia). apply Ok_inj in Hm. cbv zeta in Hm.
  assert (Hc' : 0 <= x' < w /\ 0 <= y' < h).
  { destruct (y mod 2 =? q_flag b) eqn:P, d; split_ifs_in Hm; try discriminate Hm;
      injection Hm as <- <-; lia. }
  split; [apply in_rect; auto|].
  exists (match d with
          | QN => QS | QS => QN
          | QNE => if y mod 2 =? q_flag b then QSW else QS
          | QSE => if y mod 2 =? q_flag b then QNW else QN
          | QSW => if y mod 2 =? q_flag b then QN else QNE
          | QNW => if y mod 2 =? q_flag b then QS else QSE
          end).
  rewrite offset_q_lew_step by (auto; lia). cbv zeta. apply f_equal.
  destruct (y mod 2 =? q_flag b) eqn:P, d; split_ifs_in Hm;
    try discriminate Hm; injection Hm as <- <-; destruct b; cbn [q_flag] in *;
    split_ifs; try (apply f_equal; apply pair_eq; lia); lia.
Qed.

(** ** Double coordinates (C33) *)

(** Two coordinates for the first node. *)
Lemma c33_alias : forall w h m, 1 <= w -> 1 <= h ->
  sh_to_offset (double_shape w h) m (0, 0) = Ok (Some (0, 0)) /\
  sh_to_offset (double_shape w h) m (1, 0) = Ok (Some (0, 0)).
Proof.
  intros w h m Hw Hh. cbn [double_shape sh_to_offset]. unfold double_to_offset. cbn [fst snd].
  replace (0 / 2) with 0 by reflexivity. replace (1 / 2) with 0 by reflexivity.
  replace ((0 <? w) && (0 <? h)) with true by lia. auto.
Qed.
Lemma c33_injective : forall w h m c c' o, 
  fst c mod 2 = snd c mod 2 -> fst c' mod 2 = snd c' mod 2 ->
  sh_to_offset (double_shape w h) m c = Ok (Some o) ->
  sh_to_offset (double_shape w h) m c' = Ok (Some o) -> c = c'.
Proof.
  intros w h m [x y] [x' y'] o. cbn [double_shape sh_to_offset fst snd].
  unfold double_to_offset. cbn [fst snd]. intros P P' H H'.
  destruct ((x / 2 <? w) && (y <? h)); [|discriminate].
  destruct ((x' / 2 <? w) && (y' <? h)); [|discriminate].
  assert (E : (x / 2, y) = (x' / 2, y')) by congruence. apply pair_inv in E.
  apply pair_eq; lia.
Qed.

(** Cells of the right half of a row are not reached from the left, though the move back and
    [is_neighbor] know them. *)
Lemma c33_oneway : forall w h m y x, fits w h -> 0 <= y < h -> 0 <= x -> x mod 2 = y mod 2 ->
  w <= x + 2 -> (x + 2) / 2 < w ->
  sh_move_coord (double_shape w h) m (x, y) RE = Ok None /\
  sh_move_coord (double_shape w h) m (x + 2, y) RW = Ok (Some (x, y)) /\
  sh_is_neighbor (double_shape w h) m (x, y) (x + 2, y) = Ok true /\
  (forall d, sh_move_coord (double_shape w h) m (x, y) d <> Ok (Some (x + 2, y))).
Proof.
  intros w h m y x F Hy Hx Hp Hw Hb. pose proof (fits_bounds _ _ F) as B. rewrite IMAX1_val in B.
  cbn [double_shape sh_move_coord sh_is_neighbor].
  split; [rewrite double_step by (auto; lia); replace (x + 2 <? w) with false by lia; reflexivity|].
  split.
  { rewrite double_step by (auto; lia). replace (2 <=? x + 2) with true by lia.
    apply f_equal. apply f_equal. apply pair_eq; lia. }
  split.
  { unfold double_is_neighbor, abs_diff. cbn [fst snd].
    replace (Z.abs (y - y)) with 0 by lia. replace (1 <? 0) with false by reflexivity.
    replace (Z.abs (x - (x + 2))) with 2 by lia.
    rewrite usize_add_ok by (rewrite USIZE_val; lia). reflexivity. }
  intros d H. rewrite double_step in H by (auto; lia). apply Ok_inj in H.
  destruct d; split_ifs_in H; try discriminate H;
    (assert (E : forall a b : Z * Z, Some a = Some b -> a = b) by congruence);
    apply E in H; apply pair_inv in H; lia.
Qed.

(** Moves to the west, and all moves within the first [w] coordinates, are right. *)
Lemma c33_moves : forall w h m x y d, fits w h -> In (x, y) (board w h double_cell) ->
  d = RW \/ d = RNW \/ d = RSW \/ x + fst (hexr_vec d) < w ->
  let t := vadd (x, y) (hexr_vec d) in
  sh_move_coord (double_shape w h) m (x, y) d
    = Ok (if (0 <=? fst t) && (0 <=? snd t) && (snd t <? h) then Some t else None).
Proof.
  intros w h m x y d F Hin Hd t. subst t. apply in_double in Hin.
  cbn [double_shape sh_move_coord]. rewrite double_step by (auto; lia).
  unfold vadd. cbn [fst snd]. apply f_equal.
  destruct d; cbn [hexr_vec fst snd] in *; split_ifs; try reflexivity;
    try (apply f_equal; apply pair_eq; lia); try lia;
    destruct Hd as [Hd|[Hd|[Hd|Hd]]]; try discriminate Hd; lia.
Qed.

(** ** Coordinates outside of the board (C57) *)

Lemma iter_loop_stuck : forall S R (body : S -> outcome (S + R)) x, body x = Ok (inl x) ->
  forall p, iter_loop body p x = Ok (inl x).
Proof.
  intros S R body x H. induction p; cbn [iter_loop]; rewrite ?H, ?IHp; auto.
Qed.

(** No [n] is enough rounds for the loop of a board without columns. *)
Lemma c57_stuck : forall m min r, r < min -> - IMAX1 <= r < IMAX1 ->
  forall p, iter_loop (fun r => let! r' := isize_add m r 0 in
                       Ok (if r' <? min then inl r' else inr r')) p r = Ok (inl r).
Proof.
  intros m min r Hr Hb p. apply iter_loop_stuck. rewrite isize_add_ok by lia. cbn [bind].
  rewrite Z.add_0_r. replace (r <? min) with true by lia. reflexivity.
Qed.

Lemma c57_diverges_w : forall b h m, 1 <= h ->
  sh_move_coord (hex_axial_r_lew HAxial b 0 h) m (0, 0) RW = Fail FDiverge.
Proof.
  intros b h m Hh. unfold hex_axial_r_lew, axial_lew_shape. cbn [sh_move_coord].
  unfold axial_move_coord_lew, axial_move_r. rewrite isize_sub_ok by (rewrite IMAX1_val; lia).
  cbn [bind ha_new fst snd]. replace (as_usize 0) with 0 by reflexivity.
  replace (h <=? 0) with false by lia.
  replace (isize_add m 0 (convert_offset (r_is_even b))) with (Ok (co_r b))
    by (destruct b, m; reflexivity). cbn [bind].
  replace (isize_neg m (isize_half (co_r b))) with (Ok 0) by (destruct b, m; reflexivity).
  cbn [bind]. replace (0 - 1 <? 0) with true by reflexivity.
  unfold wrap_up, loop. replace (as_isize 0) with 0 by reflexivity.
  rewrite c57_stuck by (rewrite ?IMAX1_val; lia). reflexivity.
Qed.

Lemma wrap_isize_range : forall m x y, wrap_isize m x = Ok y -> - IMAX1 <= y < IMAX1.
Proof.
  intros m x y H. unfold wrap_isize in H.
  destruct ((- IMAX1 <=? x) && (x <? IMAX1)) eqn:E.
  - injection H as <-. rewrite IMAX1_val in *. lia.
  - destruct m; [discriminate|]. injection H as <-. unfold as_isize.
    rewrite USIZE_val, IMAX1_val.
    pose proof (Z.mod_pos_bound x 18446744073709551616 ltac:(lia)) as P.
    set (z := x mod 18446744073709551616) in *. clearbody z. clear E.
    destruct (z <? 9223372036854775808) eqn:E1; lia.
Qed.
Lemma wrap_isize_div : forall m x, wrap_isize m x <> Fail FDiverge.
Proof. intros m x. unfold wrap_isize. destruct (_ && _), m; discriminate. Qed.
Lemma ha_new_div : forall k m r q, ha_new k m r q <> Fail FDiverge.
Proof.
  intros k m r q. unfold ha_new, unreachable_debug_checked.
  destruct k; [discriminate|]. destruct (_ && _ && _ && _), m; discriminate.
Qed.
Lemma ha_new_same : forall k m r q c, ha_new k m r q = Ok c -> c = (r, q).
Proof.
  intros k m r q c. unfold ha_new, unreachable_debug_checked.
  destruct k; [congruence|]. destruct (_ && _ && _ && _), m; congruence.
Qed.

(** The outcome of [let!] steps that neither diverge nor leave the range of [isize]. *)
Definition settles (o : outcome (Z * Z)) : Prop :=
  match o with
  | Ok c => (- IMAX1 <= fst c < IMAX1) /\ (- IMAX1 <= snd c < IMAX1)
  | Fail f => f <> FDiverge
  end.

Lemma ha_new_settles : forall k m r q, - IMAX1 <= r < IMAX1 -> - IMAX1 <= q < IMAX1 ->
  settles (ha_new k m r q).
Proof.
  intros k m r q Hr Hq. destruct (ha_new k m r q) eqn:E; cbn [settles].
  - apply ha_new_same in E. subst. auto.
  - intros ->. exact (ha_new_div _ _ _ _ E).
Qed.
Lemma wrap_settles : forall m x (f : Z -> outcome (Z * Z)),
  (forall y, - IMAX1 <= y < IMAX1 -> settles (f y)) -> settles (bind (wrap_isize m x) f).
Proof.
  intros m x f H. destruct (wrap_isize m x) as [y|e] eqn:E; cbn [bind].
  - apply H. eapply wrap_isize_range; eauto.
  - cbn [settles]. intros ->. exact (wrap_isize_div _ _ E).
Qed.

Lemma axial_move_r_settles : forall k m c d, - IMAX1 <= fst c < IMAX1 -> - IMAX1 <= snd c < IMAX1 ->
  settles (axial_move_r k m c d).
Proof.
  intros k m [r q] d Hr Hq. cbn [fst snd] in *. unfold axial_move_r, isize_add, isize_sub.
  destruct d; repeat (apply wrap_settles; intros); apply ha_new_settles; auto.
Qed.
Lemma axial_move_q_settles : forall k m c d, - IMAX1 <= fst c < IMAX1 -> - IMAX1 <= snd c < IMAX1 ->
  settles (axial_move_q k m c d).
Proof.
  intros k m [r q] d Hr Hq. cbn [fst snd] in *. unfold axial_move_q, isize_add, isize_sub.
  destruct d; repeat (apply wrap_settles; intros); apply ha_new_settles; auto.
Qed.

Lemma wrap_up_total : forall m w min r, 1 <= w < IMAX1 -> min <= 0 -> - IMAX1 <= r < min ->
  exists r', wrap_up m w min r = Ok r'.
Proof.
  intros m w min r Hw Hmin Hr. rewrite IMAX1_val in *.
  enough (H : forall n r, - 9223372036854775808 <= r < min -> min - r <= Z.of_nat n ->
    exists k r', (k <= n)%nat /\
      Rounds (fun r => let! r' := isize_add m r w in
                       Ok (if r' <? min then inl r' else inr r')) k r (Ok r')).
  { destruct (H (Z.to_nat (min - r)) r Hr ltac:(lia)) as (k & r' & Hk & HR).
    exists r'. unfold wrap_up. eapply loop_rounds; [exact HR|]. lia. }
  clear r Hr. induction n as [|n IH]; intros r Hr Hn; [lia|].
  assert (Hadd : isize_add m r w = Ok (r + w)) by (apply isize_add_ok; rewrite IMAX1_val; lia).
  destruct (r + w <? min) eqn:E.
  - destruct (IH (r + w) ltac:(lia) ltac:(lia)) as (k & r' & Hk & HR).
    exists (S k), r'. split; [lia|]. eapply R_more; [|exact HR].
    cbv beta. rewrite Hadd. cbn [bind]. rewrite E. reflexivity.
  - exists 0%nat, (r + w). split; [lia|]. apply R_done.
    cbv beta. rewrite Hadd. cbn [bind]. rewrite E. reflexivity.
Qed.

Lemma wrap_down_total : forall m w max r, 1 <= w < IMAX1 -> w <= max -> r < IMAX1 ->
  exists r', wrap_down m w max r = Ok r'.
Proof.
  intros m w max r Hw Hmax Hr. rewrite IMAX1_val in *.
  enough (H : forall n r, r < 9223372036854775808 -> r - max < Z.of_nat n ->
    exists k r', (k <= n)%nat /\
      Rounds (fun r => if max <=? r
                 then let! r' := isize_sub m r w in Ok (inl r')
                 else Ok (inr r)) k r (Ok r')).
  { destruct (H (Z.to_nat (r - max + 1)) r Hr ltac:(lia)) as (k & r' & Hk & HR).
    exists r'. unfold wrap_down. eapply loop_rounds; [exact HR|]. lia. }
  clear r Hr. induction n as [|n IH]; intros r Hr Hn.
  - exists 0%nat, r. split; [lia|]. apply R_done. cbv beta.
    replace (max <=? r) with false by lia. reflexivity.
  - destruct (max <=? r) eqn:E.
    + assert (Hsub : isize_sub m r w = Ok (r - w)) by (apply isize_sub_ok; rewrite IMAX1_val; lia).
      destruct (IH (r - w) ltac:(lia) ltac:(lia)) as (k & r' & Hk & HR).
      exists (S k), r'. split; [lia|]. eapply R_more; [|exact HR].
      cbv beta. rewrite E, Hsub. reflexivity.
    + exists 0%nat, r. split; [lia|]. apply R_done. cbv beta. rewrite E. reflexivity.
Qed.

Lemma axial_lew_terminates : forall D k (mv : mode -> Z * Z -> D -> outcome (Z * Z)) co w h m c d,
  0 <= co <= 1 -> fits w h -> 1 <= w -> settles (mv m c d) ->
  axial_move_coord_lew k mv co w h m c d <> Fail FDiverge.
Proof.
  intros D k mv co w h m c d Hco F Hw Hmv. pose proof (fits_bounds _ _ F) as B.
  unfold axial_move_coord_lew. destruct (mv m c d) as [[r q]|f]; cbn [settles fst snd] in Hmv;
    [|cbn [bind]; congruence].
  cbn [bind fst snd]. destruct Hmv as [Hr Hq].
  destruct (h <=? as_usize q) eqn:Eq; [discriminate|].
  assert (Hq' : 0 <= q < h).
  { unfold as_usize in Eq. rewrite USIZE_val, IMAX1_val in *.
    destruct (Z.eq_dec (q mod 18446744073709551616) q); lia. }
  assert (W : w + h <= IMAX1).
  { destruct F as (_ & _ & F). rewrite IMAX1_val in *.
    replace (Z.max 1 w) with w in F by lia. replace (Z.max 1 h) with h in F by lia.
    change (2 ^ 63) with 9223372036854775808 in F. nia. }
  rewrite isize_add_ok by lia. cbn [bind]. unfold isize_half.
  rewrite Z.quot_div_nonneg by lia. unfold isize_neg.
  rewrite wrap_isize_ok by lia. cbn [bind].
  replace (as_isize w) with w by (unfold as_isize; replace (w <? IMAX1) with true by lia; reflexivity).
  assert (HH : exists r', (if r <? - ((q + co) / 2) then wrap_up m w (- ((q + co) / 2)) r
     else let! max := isize_sub m w (- ((q + co) / 2)) in wrap_down m w max r) = Ok r').
  { destruct (r <? - ((q + co) / 2)) eqn:E.
    - apply wrap_up_total; lia.
    - rewrite isize_sub_ok by lia. cbn [bind]. apply wrap_down_total; lia. }
  destruct HH as (r' & ->). cbn [bind].
  destruct (ha_new k m r' q) eqn:E; cbn [bind]; [discriminate|].
  intros H. apply (ha_new_div k m r' q). congruence.
Qed.

Lemma c57_terminates_r : forall k b w h m c d, fits w h -> 1 <= w -> is_isize (fst c) ->
  is_isize (snd c) -> sh_move_coord (hex_axial_r_lew k b w h) m c d <> Fail FDiverge.
Proof.
  intros k b w h m c d F Hw Hr Hq. unfold hex_axial_r_lew, axial_lew_shape. cbn [sh_move_coord].
  apply axial_lew_terminates; auto; [destruct b; cbn; lia|]. apply axial_move_r_settles; auto.
Qed.
Lemma c57_terminates_q : forall k b w h m c d, fits w h -> 1 <= w -> is_isize (fst c) ->
  is_isize (snd c) -> sh_move_coord (hex_axial_q_lew k b w h) m c d <> Fail FDiverge.
Proof.
  intros k b w h m c d F Hw Hr Hq. unfold hex_axial_q_lew, axial_lew_shape. cbn [sh_move_coord].
  apply axial_lew_terminates; auto; [destruct b; cbn; lia|]. apply axial_move_q_settles; auto.
Qed.
