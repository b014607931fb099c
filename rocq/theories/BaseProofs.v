(** * BaseProofs: the public steps of the doubled bases, and bases that say they are flat-top. *)

From Coq Require Import ZArith Lia Bool List.
From Coq Require Import ZifyBool ZifyNat.
From Verif Require Import Machine Basics Axes Shapes Spec Spec17 ShapeProofs.
Import ListNotations.
Local Open Scope Z_scope.
Ltac Zify.zify_post_hook ::= Z.div_mod_to_equations.

Definition insideb (w h : Z) (c : Z * Z) : bool :=
  (0 <=? fst c) && (fst c <? w) && (0 <=? snd c) && (snd c <? h).

Lemma insideb_iff : forall w h c, insideb w h c = true <-> inside w h c.
Proof. intros. unfold insideb, inside. lia. Qed.

Ltac dstep :=
  repeat first
    [ rewrite usize_add_ok by (rewrite USIZE_val in *; lia); cbn [bind]
    | match goal with
      | |- context [if ?b then _ else _] =>
          lazymatch b with
          | insideb _ _ _ => fail
          | _ => let E := fresh "B" in destruct b eqn:E
          end
      end ].

Lemma double_q_ok : forall w h m c d, 0 <= w <= USIZE - 2 -> 0 <= h <= USIZE - 2 -> inside w h c ->
  double_move_q w h m c d =
    Ok (if insideb w h (plus c (double_vec_q d)) then Some (plus c (double_vec_q d)) else None).
Proof.
  intros w h m [x y] d Hw Hh [Hx Hy]. cbn [fst snd] in *.
  destruct (insideb w h (plus (x, y) (double_vec_q d))) eqn:EI; unfold insideb, plus in EI;
  destruct d; cbn [double_vec_q fst snd plus] in *; unfold double_move_q, checked_sub; dstep;
    try lia; repeat f_equal; try lia; unfold plus; cbn [fst snd]; repeat f_equal; lia.
Qed.

Lemma double_r_ok : forall w h m c d, 0 <= w <= USIZE - 2 -> 0 <= h <= USIZE - 2 -> inside w h c ->
  double_move_r w h m c d =
    Ok (if insideb w h (plus c (double_vec_r d)) then Some (plus c (double_vec_r d)) else None).
Proof.
  intros w h m [x y] d Hw Hh [Hx Hy]. cbn [fst snd] in *.
  destruct (insideb w h (plus (x, y) (double_vec_r d))) eqn:EI; unfold insideb, plus in EI;
  destruct d; cbn [double_vec_r fst snd plus] in *; unfold double_move_r, checked_sub; dstep;
    try lia; repeat f_equal; try lia; unfold plus; cbn [fst snd]; repeat f_equal; lia.
Qed.

Lemma c110_columns : forall w h m c d, 0 <= w <= USIZE - 2 -> 0 <= h <= USIZE - 2 -> inside w h c ->
  exists o, double_move_q w h m c d = Ok o /\
    forall t, o = Some t <-> t = plus c (double_vec_q d) /\ inside w h t.
Proof.
  intros w h m c d Hw Hh Hc. rewrite double_q_ok by auto. eexists. split; [reflexivity|].
  intros t. rewrite <- insideb_iff.
  destruct (insideb w h (plus c (double_vec_q d))) eqn:E; split; intros H.
  - inversion H. subst. auto.
  - destruct H as [-> _]. reflexivity.
  - discriminate.
  - destruct H as [-> H]. congruence.
Qed.

Lemma c110_rows : forall w h m c d, 0 <= w <= USIZE - 2 -> 0 <= h <= USIZE - 2 -> inside w h c ->
  exists o, double_move_r w h m c d = Ok o /\
    forall t, o = Some t <-> t = plus c (double_vec_r d) /\ inside w h t.
Proof.
  intros w h m c d Hw Hh Hc. rewrite double_r_ok by auto. eexists. split; [reflexivity|].
  intros t. rewrite <- insideb_iff.
  destruct (insideb w h (plus c (double_vec_r d))) eqn:E; split; intros H.
  - inversion H. subst. auto.
  - destruct H as [-> _]. reflexivity.
  - discriminate.
  - destruct H as [-> H]. congruence.
Qed.

Lemma plus_back : forall c v v', plus v v' = (0, 0) -> plus (plus c v) v' = c.
Proof.
  intros [x y] [a b] [a' b'] H. unfold plus in *. cbn [fst snd] in *. inversion H. f_equal; lia.
Qed.

Lemma c110_back : forall w h m c, 0 <= w <= USIZE - 2 -> 0 <= h <= USIZE - 2 -> inside w h c ->
  (forall d d' t, double_move_r w h m c d = Ok (Some t) ->
     plus (double_vec_r d) (double_vec_r d') = (0, 0) -> double_move_r w h m t d' = Ok (Some c)) /\
  (forall d d' t, double_move_q w h m c d = Ok (Some t) ->
     plus (double_vec_q d) (double_vec_q d') = (0, 0) -> double_move_q w h m t d' = Ok (Some c)).
Proof.
  intros w h m c Hw Hh Hc. split; intros d d' t Ht Hd.
  - rewrite double_r_ok in Ht by auto.
    destruct (insideb w h (plus c (double_vec_r d))) eqn:E; inversion Ht; subst t.
    rewrite double_r_ok by (auto; apply insideb_iff; auto). rewrite plus_back by auto.
    replace (insideb w h c) with true; [reflexivity|]. symmetry. apply insideb_iff. auto.
  - rewrite double_q_ok in Ht by auto.
    destruct (insideb w h (plus c (double_vec_q d))) eqn:E; inversion Ht; subst t.
    rewrite double_q_ok by (auto; apply insideb_iff; auto). rewrite plus_back by auto.
    replace (insideb w h c) with true; [reflexivity|]. symmetry. apply insideb_iff. auto.
Qed.

(** ** Flat-top bases *)

Lemma convert_offset_range : forall even, 0 <= convert_offset even <= 1.
Proof. destruct even; cbn; lia. Qed.

Lemma flat_offset : forall co w h m c,
  0 <= co <= 1 -> 0 <= w < IMAX1 -> 0 <= h < IMAX1 -> is_isize (fst c) -> is_isize (snd c) ->
  is_isize (snd (column_cell co c)) ->
  axial_to_offset true co w h m c =
    Ok (if insideb w h (column_cell co c) then Some (column_cell co c) else None).
Proof.
  intros co w h m [r q] Hco Hw Hh Hr Hq Hv. unfold axial_to_offset, axial_shift, is_isize, insideb, column_cell in *.
  cbn [fst snd] in *. rewrite IMAX1_val in *.
  destruct (0 <=? r) eqn:E1.
  - rewrite as_usize_nonneg by (rewrite USIZE_val; lia).
    destruct (r <? w) eqn:E2; [|reflexivity].
    rewrite usize_add_ok by (rewrite USIZE_val; lia). cbn [bind].
    rewrite as_isize_small by (rewrite IMAX1_val; lia).
    rewrite isize_add_ok by (rewrite IMAX1_val; lia). cbn [bind].
    destruct (0 <=? q + (r + co) / 2) eqn:E3.
    + rewrite as_usize_nonneg by (rewrite USIZE_val; lia).
      destruct (q + (r + co) / 2 <? h); reflexivity.
    + rewrite as_usize_neg by (rewrite USIZE_val; lia).
      replace (q + (r + co) / 2 + USIZE <? h) with false by (rewrite USIZE_val; lia). reflexivity.
  - rewrite as_usize_neg by (rewrite USIZE_val; lia).
    replace (r + USIZE <? w) with false by (rewrite USIZE_val; lia). reflexivity.
Qed.

Section Flat.
  Context {A D : Type} (ax : AxisOps A D) (k : AxialKind)
    (mv : mode -> Z * Z -> D -> outcome (Z * Z)) (even : bool).
  Let co := if even then 1 else 0.
  Let co_eq : convert_offset even = co.
  Proof. reflexivity. Qed.
  Let co_range : 0 <= co <= 1.
  Proof. unfold co. destruct even; lia. Qed.

  Lemma c111_offset : forall w h m c, 0 <= w < IMAX1 -> 0 <= h < IMAX1 ->
    is_isize (fst c) -> is_isize (snd c) -> is_isize (snd (column_cell co c)) ->
    exists o, sh_to_offset (axial_shape ax k mv true even w h) m c = Ok o /\
      forall p, o = Some p <-> p = column_cell co c /\ inside w h p.
  Proof.
    intros w h m c Hw Hh Hr Hq Hv. cbn [sh_to_offset axial_shape].
    rewrite co_eq, flat_offset by auto. eexists. split; [reflexivity|].
    intros t. rewrite <- insideb_iff.
    destruct (insideb w h (column_cell co c)) eqn:E; split; intros H.
    - inversion H. subst. auto.
    - destruct H as [-> _]. reflexivity.
    - discriminate.
    - destruct H as [-> H]. congruence.
  Qed.

  Lemma c111_unchecked : forall w h m c, 0 <= w < IMAX1 -> 0 <= h < IMAX1 -> is_isize (snd c) ->
    inside w h (column_cell co c) ->
    sh_to_offset_unchecked (axial_shape ax k mv true even w h) m c = Ok (column_cell co c).
  Proof.
    intros w h m [r q] Hw Hh Hq [Hx Hy]. cbn [sh_to_offset_unchecked axial_shape].
    unfold axial_to_offset_unchecked, axial_shift, column_cell, is_isize in *. rewrite co_eq.
    cbn [fst snd] in *. rewrite IMAX1_val in *.
    rewrite !as_usize_nonneg by (rewrite USIZE_val; lia).
    rewrite usize_add_ok by (rewrite USIZE_val; lia). cbn [bind].
    rewrite as_isize_small by (rewrite IMAX1_val; lia).
    rewrite isize_add_ok by (rewrite IMAX1_val; lia). cbn [bind].
    rewrite as_usize_nonneg by (rewrite USIZE_val; lia). reflexivity.
  Qed.

  Lemma c111_coordinate : forall w h m c, 0 <= w < IMAX1 -> 0 <= h < IMAX1 ->
    inside w h (column_cell co c) -> holds k c ->
    sh_offset_to_coordinate (axial_shape ax k mv true even w h) m (column_cell co c) = Ok c.
  Proof.
    intros w h m [r q] Hw Hh [Hx Hy] Hk. cbn [sh_offset_to_coordinate axial_shape].
    unfold axial_offset_to_coordinate, axial_shift, column_cell, holds in *. rewrite co_eq.
    cbn [fst snd] in *. rewrite IMAX1_val in *.
    rewrite usize_add_ok by (rewrite USIZE_val; lia). cbn [bind].
    rewrite !as_isize_small by (rewrite IMAX1_val; lia).
    rewrite isize_sub_ok by (rewrite IMAX1_val; lia). cbn [bind].
    replace (q + (r + co) / 2 - (r + co) / 2) with q by lia.
    apply ha_new_ok. destruct k; auto.
  Qed.
End Flat.

Lemma c111_move : forall (A : Type) (ax : AxisOps A AxisDQ) (k : AxialKind) (even : bool) w h m c d,
  0 <= w < IMAX1 - 1 -> 0 <= h < IMAX1 - 1 ->
  inside w h (column_cell (if even then 1 else 0) c) -> holds k (plus c (axial_vec_q d)) ->
  exists o, sh_move_coord (axial_shape ax k (axial_move_q k) true even w h) m c d = Ok o /\
    forall t, o = Some t <->
      t = plus c (axial_vec_q d) /\ inside w h (column_cell (if even then 1 else 0) t).
Proof.
  intros A ax k even w h m [r q] d Hw Hh HI Hk. cbn [sh_move_coord axial_shape].
  unfold axial_move_coord.
  change (convert_offset even) with (if even then 1 else 0).
  set (co := if even then 1 else 0) in *.
  assert (Hco : 0 <= co <= 1) by (unfold co; destruct even; lia). clearbody co.
  destruct HI as [Hx Hy]. unfold column_cell in Hx, Hy. cbn [fst snd] in Hx, Hy.
  rewrite IMAX1_val in *.
  assert (MV : axial_move_q k m (r, q) d = Ok (plus (r, q) (axial_vec_q d))).
  { destruct d; cbn [axial_vec_q] in *; unfold axial_move_q, plus, holds in *; cbn [fst snd] in *;
      rewrite ?isize_add_ok, ?isize_sub_ok by (rewrite IMAX1_val; lia); cbn [bind];
      rewrite ?isize_add_ok, ?isize_sub_ok by (rewrite IMAX1_val; lia); cbn [bind];
      (rewrite ha_new_ok; [f_equal; apply pair_eq; lia | destruct k; cbn [rep]; lia]). }
  rewrite MV. cbn [bind].
  assert (Hv : 0 <= fst (axial_vec_q d) + 1 <= 2 /\ 0 <= snd (axial_vec_q d) + 1 <= 2)
    by (destruct d; cbn; lia).
  rewrite flat_offset; unfold is_isize; rewrite ?IMAX1_val; auto; try lia.
  2,3: unfold plus; cbn [fst snd]; lia.
  2: unfold column_cell, plus; cbn [fst snd]; lia.
  cbn [bind]. eexists. split; [reflexivity|].
  intros t. rewrite <- insideb_iff.
  destruct (insideb w h (column_cell co (plus (r, q) (axial_vec_q d)))) eqn:E; split; intros H.
  - inversion H. subst. auto.
  - destruct H as [-> _]. reflexivity.
  - discriminate.
  - destruct H as [-> H]. congruence.
Qed.

Lemma c110_overflow : forall w h m x y,
  (0 <= y -> double_move_r (USIZE - 1) h m (USIZE - 2, y) RE =
     match m with Debug => Fail FPanic | Release => Ok (Some (0, y)) end) /\
  (0 <= x -> double_move_q w (USIZE - 1) m (x, USIZE - 2) QN =
     match m with Debug => Fail FPanic | Release => Ok (Some (x, 0)) end).
Proof.
  intros w h m x y. split; intros _; unfold double_move_r, double_move_q, usize_add, wrap_usize;
    replace (USIZE - 2 + 2) with USIZE by lia;
    replace ((0 <=? USIZE) && (USIZE <? USIZE)) with false by lia;
    destruct m; cbn [bind]; try reflexivity;
    rewrite Z_mod_same_full; replace (USIZE - 1 <=? 0) with false by (rewrite USIZE_val; lia); reflexivity.
Qed.

Lemma c110_outside : forall m,
  double_move_q 3 3 m (0, 7) QSE = Ok (Some (1, 6)) /\
  double_move_r 3 3 m (0, 7) RSE = Ok (Some (1, 6)).
Proof. intros []; vm_compute; auto. Qed.

(** A board of columns that closes East-West: the wrap-around does not know of columns. *)
Definition flat_loop : Shape (Z * Z) AxisQ AxisDQ :=
  axial_lew_shape q_axis HAxial (axial_move_q HAxial) true false 3 5.

Lemma c111_loop : forall m,
  (exists c d t, sh_to_offset flat_loop m c = Ok (Some (column_cell 0 c)) /\
     sh_move_coord flat_loop m c d = Ok (Some t) /\ sh_to_offset flat_loop m t = Ok None) /\
  (exists c d, sh_to_offset flat_loop m c = Ok (Some (column_cell 0 c)) /\
     inside 3 5 (column_cell 0 (plus c (axial_vec_q d))) /\ sh_move_coord flat_loop m c d = Ok None).
Proof.
  intros m. split.
  - exists (1, 4), QNE, (2, 4). destruct m; vm_compute; auto.
  - exists (2, 0), QS. destruct m; vm_compute; repeat split; congruence.
Qed.
