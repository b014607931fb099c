(** * CountProofs: how many edges a board has. *)

From Verif Require Import Machine Store Axes Shapes Lattice Spec Spec2 Basics AxisProofs
  GeoProofs ShapeProofs StoreProofs Main1.
From Coq Require Import ZifyBool ZifyNat.
Ltac Zify.zify_post_hook ::= Z.div_mod_to_equations.

(** ** Sums over 0..n *)

Definition zsum (n : Z) (f : Z -> Z) : Z := fold_right Z.add 0 (map f (zrange n)).

Lemma sum_app : forall l1 l2, fold_right Z.add 0 (l1 ++ l2) = fold_right Z.add 0 l1 + fold_right Z.add 0 l2.
Proof. induction l1; intros; cbn [app fold_right]; [lia|]. rewrite IHl1. lia. Qed.

Lemma zsum_0 : forall n f, n <= 0 -> zsum n f = 0.
Proof. intros. unfold zsum. rewrite zrange_nonpos by auto. reflexivity. Qed.
Lemma zsum_succ : forall n f, 0 <= n -> zsum (n + 1) f = zsum n f + f n.
Proof.
  intros n f H. unfold zsum. rewrite zrange_succ, map_app, sum_app by auto. cbn [map fold_right]. lia.
Qed.

Lemma zsum_ind : forall (P : Z -> Prop), P 0 -> (forall n, 0 <= n -> P n -> P (n + 1)) ->
  forall n, 0 <= n -> P n.
Proof. intros P H0 HS n Hn. revert n Hn. apply natlike_ind; auto. Qed.

Lemma zsum_ext : forall n f g, (forall i, 0 <= i < n -> f i = g i) -> zsum n f = zsum n g.
Proof.
  intros n f g H. unfold zsum. f_equal. apply map_ext_in. intros i Hi. apply H.
  apply in_zrange. auto.
Qed.
Lemma zsum_plus : forall n f g, zsum n (fun i => f i + g i) = zsum n f + zsum n g.
Proof.
  intros n f g. unfold zsum. induction (zrange n); cbn [map fold_right]; lia.
Qed.
Lemma zsum_const : forall n k, 0 <= n -> zsum n (fun _ => k) = n * k.
Proof.
  intros n k. revert n. apply zsum_ind; [reflexivity|]. intros n Hn IH.
  rewrite zsum_succ by auto. lia.
Qed.
Lemma sum_zeros : forall X (l : list X), fold_right Z.add 0 (map (fun _ => 0) l) = 0.
Proof. induction l; auto. Qed.
Lemma zsum_list : forall X n (f : X -> Z -> Z) l,
  zsum n (fun i => fold_right Z.add 0 (map (fun a => f a i) l))
  = fold_right Z.add 0 (map (fun a => zsum n (f a)) l).
Proof.
  intros X n f l. induction l as [|a l IH]; cbn [map fold_right].
  - apply (sum_zeros Z (zrange n)).
  - rewrite zsum_plus, IH. reflexivity.
Qed.
Lemma zsum_swap : forall n k f,
  zsum n (fun x => zsum k (fun y => f x y)) = zsum k (fun y => zsum n (fun x => f x y)).
Proof. intros n k f. symmetry. exact (zsum_list Z k f (zrange n)). Qed.

Definition b2z (b : bool) : Z := if b then 1 else 0.

(** How many i in 0..n have i + k in 0..n, for k between -1 and 1. *)
Lemma count_shift : forall n k, 1 <= n -> -1 <= k <= 1 ->
  zsum n (fun i => b2z ((0 <=? i + k) && (i + k <? n))) = n - Z.abs k.
Proof.
  intros n k Hn Hk.
  assert (H : forall N, 0 <= N -> forall lo hi, 0 <= lo -> lo <= hi -> hi <= N ->
    zsum N (fun i => b2z ((lo <=? i) && (i <? hi))) = hi - lo).
  { apply (zsum_ind (fun N => forall lo hi, 0 <= lo -> lo <= hi -> hi <= N ->
      zsum N (fun i => b2z ((lo <=? i) && (i <? hi))) = hi - lo)).
    - intros. rewrite zsum_0 by lia. lia.
    - intros N HN IH lo hi H1 H2 H3. rewrite zsum_succ by auto.
      destruct (Z.eq_dec hi (N + 1)) as [->|Hne].
      + destruct (Z.eq_dec lo (N + 1)) as [->|Hlo].
        * rewrite (zsum_ext _ _ (fun _ => 0)).
          { rewrite zsum_const by auto. unfold b2z. destruct ((_ <=? _) && _) eqn:E; lia. }
          intros i Hi. unfold b2z. destruct ((_ <=? _) && _) eqn:E; lia.
        * rewrite (zsum_ext _ _ (fun i => b2z ((lo <=? i) && (i <? N)))).
          { rewrite IH by lia. unfold b2z. destruct ((_ <=? _) && _) eqn:E; lia. }
          intros i Hi. f_equal. lia.
      + rewrite IH by lia. unfold b2z. destruct ((_ <=? _) && _) eqn:E; lia. }
  rewrite (zsum_ext _ _ (fun i => b2z ((Z.max 0 (- k) <=? i) && (i <? Z.min n (n - k))))).
  - rewrite H by lia. lia.
  - intros i Hi. f_equal. lia.
Qed.

(** ** Counting on a board *)

Lemma length_board : forall X (f : Cell -> list X) w h cell,
  Z.of_nat (length (flat_map f (board w h cell)))
  = zsum w (fun x => zsum h (fun y => Z.of_nat (length (f (cell x y))))).
Proof.
  intros X f w h cell. unfold board, zsum.
  induction (zrange w) as [|x l IH]; cbn [flat_map map fold_right]; auto.
  rewrite flat_map_app, app_length, Nat2Z.inj_add, IH. f_equal. clear IH.
  induction (zrange h) as [|y ys IH]; cbn [flat_map map fold_right]; auto.
  rewrite app_length, Nat2Z.inj_add, IH. reflexivity.
Qed.

(** [grid G w h cell tgt]: seen from the cell at (x, y), direction [d] leads to (x', y') =
    [tgt x y d]; the step exists exactly if that is on the board. *)
Definition inside (w h : Z) (t : Z * Z) : bool :=
  (0 <=? fst t) && (fst t <? w) && ((0 <=? snd t) && (snd t <? h)).
Definition has_step {A D} (G : Geometry A D) c d : bool :=
  match geo_step G c d with Some _ => true | None => false end.
Definition grid {A D} (G : Geometry A D) (w h : Z) (cell : Z -> Z -> Cell)
  (ok : Z -> Z -> D -> bool) : Prop :=
  geo_nodes G = board w h cell /\
  forall x y d, 0 <= x < w -> 0 <= y < h -> has_step G (cell x y) d = ok x y d.

(** The number of cells with a neighbour in direction [d]. *)
Definition dir_count {D} (w h : Z) (ok : Z -> Z -> D -> bool) (d : D) : Z :=
  zsum w (fun x => zsum h (fun y => b2z (ok x y d))).

Lemma length_refs : forall A D E (G : Geometry A D) (ef : Cell -> A -> E) w h cell ok,
  grid G w h cell ok ->
  Z.of_nat (length (spec_edge_references G ef))
  = fold_right Z.add 0 (map (fun a => dir_count w h ok (ag_fwd (geo_ax G) a)) (ag_axes (geo_ax G))).
Proof.
  intros A D E G ef w h cell ok [Hn Hok]. unfold spec_edge_references. rewrite Hn, length_board.
  unfold dir_count.
  rewrite <- (zsum_list A w (fun a x => zsum h (fun y => b2z (ok x y (ag_fwd (geo_ax G) a))))).
  apply zsum_ext. intros x Hx.
  rewrite <- (zsum_list A h (fun a y => b2z (ok x y (ag_fwd (geo_ax G) a)))).
  apply zsum_ext. intros y Hy.
  induction (ag_axes (geo_ax G)) as [|a l IH]; cbn [flat_map map fold_right]; auto.
  rewrite app_length, Nat2Z.inj_add, IH. f_equal.
  rewrite <- Hok by auto. unfold has_step.
  destruct (geo_step G (cell x y) (ag_fwd (geo_ax G) a)); reflexivity.
Qed.

(** The references in one direction. *)
Lemma length_refs_dir : forall A D E (G : Geometry A D) (ef : Cell -> A -> E) w h cell ok
  (p : D -> bool) a0,
  grid G w h cell ok ->
  (forall a, p (ag_fwd (geo_ax G) a) = true <-> a = a0) ->
  NoDup (ag_axes (geo_ax G)) -> In a0 (ag_axes (geo_ax G)) ->
  Z.of_nat (length (filter (fun r => p (er_direction r)) (spec_edge_references G ef)))
  = dir_count w h ok (ag_fwd (geo_ax G) a0).
Proof.
  intros A D E G ef w h cell ok p a0 [Hn Hok] Hp Hnd Hin.
  assert (Hf : filter (fun r => p (er_direction r)) (spec_edge_references G ef)
    = flat_map (fun c => match geo_step G c (ag_fwd (geo_ax G) a0) with
        | Some c' => [mkEdgeRef c c' (ef c a0) (ag_fwd (geo_ax G) a0)] | None => [] end)
        (geo_nodes G)).
  { clear Hn. unfold spec_edge_references. induction (geo_nodes G) as [|c l IH]; cbn [flat_map filter]; auto.
    rewrite filter_app, IH. f_equal. clear IH.
    assert (Hother : forall axs, ~ In a0 axs ->
      filter (fun r => p (er_direction r)) (flat_map (fun a =>
        match geo_step G c (ag_fwd (geo_ax G) a) with
        | Some c' => [mkEdgeRef c c' (ef c a) (ag_fwd (geo_ax G) a)] | None => [] end) axs) = []).
    { induction axs as [|a axs IH]; intros Hni; cbn [flat_map filter]; auto.
      rewrite filter_app, IH by (intros ?; apply Hni; right; auto). rewrite app_nil_r.
      destruct (geo_step G c (ag_fwd (geo_ax G) a)); auto. cbn [filter er_direction].
      destruct (p (ag_fwd (geo_ax G) a)) eqn:E0; auto. apply Hp in E0. subst.
      exfalso. apply Hni. left. auto. }
    induction (ag_axes (geo_ax G)) as [|a axs IH]; [destruct Hin|]. cbn [flat_map].
    rewrite filter_app. apply NoDup_cons_iff in Hnd. destruct Hnd as [Hni Hnd].
    destruct Hin as [->|Hin].
    - rewrite Hother by auto. rewrite app_nil_r.
      destruct (geo_step G c (ag_fwd (geo_ax G) a0)); auto. cbn [filter er_direction].
      rewrite (proj2 (Hp a0) eq_refl). reflexivity.
    - rewrite IH by auto. destruct (geo_step G c (ag_fwd (geo_ax G) a)); auto.
      cbn [filter er_direction app].
      destruct (p (ag_fwd (geo_ax G) a)) eqn:E0; auto. apply Hp in E0. subst. contradiction. }
  rewrite Hf, Hn, length_board. unfold dir_count. apply zsum_ext. intros x Hx. apply zsum_ext.
  intros y Hy. rewrite <- Hok by auto. unfold has_step.
  destruct (geo_step G (cell x y) (ag_fwd (geo_ax G) a0)); reflexivity.
Qed.

(** ** Grids *)

Lemma plain_grid : forall A D (G : Geometry A D) pos w h cell tgt,
  placed G pos (0, 0) -> geo_nodes G = board w h cell ->
  (forall x y x' y', pos (cell x y) = pos (cell x' y') -> x = x' /\ y = y') ->
  (forall x y d, vadd (pos (cell x y)) (ag_vec (geo_ax G) d)
                 = pos (cell (fst (tgt x y d)) (snd (tgt x y d)))) ->
  grid G w h cell (fun x y d => inside w h (tgt x y d)).
Proof.
  intros A D G pos w h cell tgt PL Hn Hinj Hv. split; auto. intros x y d Hx Hy.
  unfold has_step. destruct (geo_step G (cell x y) d) as [c'|] eqn:Es; symmetry.
  - pose proof (placed_in PL _ _ _ Es) as Hin. apply (geo_step_place PL) in Es.
    rewrite Hn in Hin. apply in_board in Hin. destruct Hin as (x' & y' & Hx' & Hy' & ->).
    apply same_place_iff in Es. destruct Es as [[_ Es]|[Es _]]; [|cbn [fst] in Es; lia].
    rewrite Hv in Es. apply Hinj in Es. destruct Es as [E1 E2]. unfold inside. rewrite E1, E2. lia.
  - apply not_true_iff_false. intros Hi. unfold inside in Hi.
    rewrite (geo_step_some PL _ _ (cell (fst (tgt x y d)) (snd (tgt x y d)))) in Es; [discriminate| |].
    + rewrite Hn. apply in_board. do 2 eexists. split; [|split; [|reflexivity]]; lia.
    + rewrite Hv. apply same_place_refl.
Qed.

Lemma loop_grid : forall A D (G : Geometry A D) pos period w h cell tgt (row : Vec -> Z),
  placed G pos period -> geo_nodes G = board w h cell -> fst period <> 0 -> 0 < w ->
  (forall x y d, vadd (pos (cell x y)) (ag_vec (geo_ax G) d)
                 = pos (cell (fst (tgt x y d)) (snd (tgt x y d)))) ->
  (forall x y, row (pos (cell x y)) = y) ->
  (forall a b, same_place period a b = true -> row a = row b) ->
  (forall x k y, exists n, pos (cell (x + k * w) y) = vadd (pos (cell x y)) (n * fst period, n * snd period)) ->
  grid G w h cell (fun x y d => (0 <=? snd (tgt x y d)) && (snd (tgt x y d) <? h)).
Proof.
  intros A D G pos period w h cell tgt row PL Hn Hp Hw Hv Hrow Hpl Hper. split; auto.
  intros x y d Hx Hy.
  unfold has_step. destruct (geo_step G (cell x y) d) as [c'|] eqn:Es; symmetry.
  - pose proof (placed_in PL _ _ _ Es) as Hin. apply (geo_step_place PL) in Es.
    rewrite Hn in Hin. apply in_board in Hin. destruct Hin as (x' & y' & Hx' & Hy' & ->).
    rewrite Hv in Es. apply Hpl in Es. rewrite !Hrow in Es. lia.
  - apply not_true_iff_false. intros Hi. set (t := tgt x y d) in *.
    rewrite (geo_step_some PL _ _ (cell (fst t mod w) (snd t))) in Es; [discriminate| |].
    + rewrite Hn. apply in_board. do 2 eexists. split; [|split; [|reflexivity]]; [|lia].
      apply Z.mod_pos_bound. lia.
    + rewrite Hv. fold t. apply same_place_iff. right. split; auto.
      destruct (Hper (fst t mod w) (fst t / w) (snd t)) as (n & Hk).
      replace (fst t mod w + fst t / w * w) with (fst t) in Hk
        by (pose proof (Z.div_mod (fst t) w ltac:(lia)); lia).
      exists n. rewrite Hk. split; reflexivity.
Qed.

Definition square_tgt (x y : Z) (d : DirectedSquareAxis) : Z * Z :=
  match d with DX => (x + 1, y + 0) | DY => (x + 0, y + 1) | DRX => (x + -1, y + 0) | DRY => (x + 0, y + -1) end.
Definition diagonal_tgt (x y : Z) (d : DirectedSquareDiagonalAxis) : Z * Z :=
  match d with
  | DN => (x + 0, y + 1) | DNE => (x + 1, y + 1) | DE => (x + 1, y + 0) | DSE => (x + 1, y + -1)
  | DS => (x + 0, y + -1) | DSW => (x + -1, y + -1) | DW => (x + -1, y + 0) | DNW => (x + -1, y + 1)
  end.
(** [u]: 1 in rows that are shifted to the right. *)
Definition shifted (co y : Z) : Z := (y + co) mod 2.
Definition hexr_tgt (co x y : Z) (d : AxisDR) : Z * Z :=
  match d with
  | RE => (x + 1, y + 0) | RW => (x + -1, y + 0)
  | RNE => (x + shifted co y, y + 1) | RNW => (x + (shifted co y - 1), y + 1)
  | RSE => (x + shifted co y, y + -1) | RSW => (x + (shifted co y - 1), y + -1)
  end.
Definition hexq_tgt (co x y : Z) (d : AxisDQ) : Z * Z :=
  match d with
  | QNE => (x + 1, y + 0) | QSW => (x + -1, y + 0)
  | QN => (x + shifted co y, y + 1) | QNW => (x + (shifted co y - 1), y + 1)
  | QSE => (x + shifted co y, y + -1) | QS => (x + (shifted co y - 1), y + -1)
  end.

Ltac grid_vec :=
  unfold shifted, vadd, axial_r_pos, axial_q_pos, axial_cell, offset_r_pos, co_r;
  try (match goal with b : HexR |- _ => destruct b end);
  cbn -[Z.mul Z.modulo Z.add Z.sub Z.opp Z.div]; unfold shifted; apply pair_eq; lia.

Lemma square_grid : forall A (ax : AxisGeo A DirectedSquareAxis) w h, ag_vec ax = square_vec ->
  grid (square_geometry ax w h) w h (fun x y => (x, y)) (fun x y d => inside w h (square_tgt x y d)).
Proof.
  intros A ax w h Hv. eapply plain_grid; [apply square_inj|reflexivity| |].
  - intros x y x' y' H. apply pair_inv in H. auto.
  - intros x y d. cbn [geo_ax square_geometry rect_geometry]. rewrite Hv. destruct d; grid_vec.
Qed.
Lemma diagonal_grid : forall A (ax : AxisGeo A DirectedSquareDiagonalAxis) w h, ag_vec ax = diagonal_vec ->
  grid (square_geometry ax w h) w h (fun x y => (x, y)) (fun x y d => inside w h (diagonal_tgt x y d)).
Proof.
  intros A ax w h Hv. eapply plain_grid; [apply square_inj|reflexivity| |].
  - intros x y x' y' H. apply pair_inv in H. auto.
  - intros x y d. cbn [geo_ax square_geometry rect_geometry]. rewrite Hv. destruct d; grid_vec.
Qed.
Lemma offset_r_grid : forall A (ax : AxisGeo A AxisDR) b w h, ag_vec ax = hexr_vec ->
  grid (offset_r_geometry ax b w h) w h (fun x y => (x, y))
    (fun x y d => inside w h (hexr_tgt (co_r b) x y d)).
Proof.
  intros A ax b w h Hv. eapply plain_grid; [apply offset_r_inj|reflexivity| |].
  - intros x y x' y' H. apply offset_pos_inj in H. auto.
  - intros x y d. cbn [geo_ax offset_r_geometry rect_geometry]. rewrite Hv. destruct d; grid_vec.
Qed.
Lemma axial_r_grid : forall A (ax : AxisGeo A AxisDR) k b w h, ag_vec ax = hexr_vec ->
  grid (axial_r_geometry ax k b w h) w h (axial_cell (co_r b))
    (fun x y d => inside w h (hexr_tgt (co_r b) x y d)).
Proof.
  intros A ax k b w h Hv. eapply plain_grid; [apply axial_r_inj|reflexivity| |].
  - intros x y x' y' H. apply axial_r_pos_inj in H. apply pair_inv in H. lia.
  - intros x y d. cbn [geo_ax axial_r_geometry axial_geometry]. rewrite Hv.
    destruct d; grid_vec.
Qed.
Lemma axial_q_grid : forall A (ax : AxisGeo A AxisDQ) k b w h, ag_vec ax = hexq_vec ->
  grid (axial_q_geometry ax k b w h) w h (axial_cell (co_q b))
    (fun x y d => inside w h (hexq_tgt (co_q b) x y d)).
Proof.
  intros A ax k b w h Hv. eapply plain_grid; [apply axial_q_inj|reflexivity| |].
  - intros x y x' y' H. apply axial_q_pos_inj in H. apply pair_inv in H. lia.
  - intros x y d. cbn [geo_ax axial_q_geometry axial_geometry]. rewrite Hv.
    destruct d; grid_vec.
Qed.

Definition row_inside (h : Z) (t : Z * Z) : bool := (0 <=? snd t) && (snd t <? h).

Lemma offset_r_loop_grid : forall A (ax : AxisGeo A AxisDR) b w h, ag_vec ax = hexr_vec -> 0 < w ->
  grid (offset_r_loop_geometry ax b w h) w h (fun x y => (x, y))
    (fun x y d => row_inside h (hexr_tgt (co_r b) x y d)).
Proof.
  intros A ax b w h Hv Hw. eapply loop_grid with (row := snd);
    [apply offset_r_loop_inj|reflexivity|cbn [fst]; lia|auto| | | |].
  - intros x y d. cbn [geo_ax offset_r_loop_geometry rect_geometry]. rewrite Hv. destruct d; grid_vec.
  - intros x y. destruct b; reflexivity.
  - intros p q H. apply same_place_iff in H. cbn [fst snd] in H.
    destruct H as [[_ ->]|(_ & k & _ & H)]; lia.
  - intros x k y. exists k. unfold vadd, offset_r_pos. destruct b; cbn [fst snd]; apply pair_eq; lia.
Qed.
Lemma axial_r_loop_grid : forall A (ax : AxisGeo A AxisDR) k b w h, ag_vec ax = hexr_vec -> 0 < w ->
  grid (axial_r_loop_geometry ax k b w h) w h (axial_cell (co_r b))
    (fun x y d => row_inside h (hexr_tgt (co_r b) x y d)).
Proof.
  intros A ax k b w h Hv Hw. eapply loop_grid with (row := snd);
    [apply axial_r_loop_inj|reflexivity|cbn [fst]; lia|auto| | | |].
  - intros x y d. cbn [geo_ax axial_r_loop_geometry axial_geometry]. rewrite Hv. destruct d; grid_vec.
  - intros x y. reflexivity.
  - intros p q H. apply same_place_iff in H. cbn [fst snd] in H.
    destruct H as [[_ ->]|(_ & n & _ & H)]; lia.
  - intros x n y. exists n. unfold vadd, axial_r_pos, axial_cell. cbn [fst snd]. apply pair_eq; lia.
Qed.
Lemma axial_q_loop_grid : forall A (ax : AxisGeo A AxisDQ) k b w h, ag_vec ax = hexq_vec -> 0 < w ->
  grid (axial_q_loop_geometry ax k b w h) w h (axial_cell (co_q b))
    (fun x y d => row_inside h (hexq_tgt (co_q b) x y d)).
Proof.
  intros A ax k b w h Hv Hw. eapply loop_grid with (row := fun p => (snd p - fst p) / 2);
    [apply axial_q_loop_inj|reflexivity|cbn [fst]; lia|auto| | | |].
  - intros x y d. cbn [geo_ax axial_q_loop_geometry axial_geometry]. rewrite Hv. destruct d; grid_vec.
  - intros x y. unfold axial_q_pos, axial_cell. cbn [fst snd].
    replace (2 * y + _ - _) with (y * 2) by lia. apply Z.div_mul. lia.
  - intros p q H. apply same_place_iff in H. cbn [fst snd] in H.
    destruct H as [[_ ->]|(_ & n & H1 & H2)]; auto. f_equal. lia.
  - intros x n y. exists n. unfold vadd, axial_q_pos, axial_cell. cbn [fst snd]. apply pair_eq; lia.
Qed.

(** ** Numbers of steps *)

(** A direction that always leads in the same way. *)
Lemma count_const : forall w h i j, 1 <= w -> 1 <= h -> -1 <= i <= 1 -> -1 <= j <= 1 ->
  zsum w (fun x => zsum h (fun y => b2z (inside w h (x + i, y + j))))
  = (w - Z.abs i) * (h - Z.abs j).
Proof.
  intros w h i j Hw Hh Hi Hj.
  rewrite (zsum_ext w _ (fun x => b2z ((0 <=? x + i) && (x + i <? w)) * (h - Z.abs j))).
  - rewrite <- (count_shift w i) by auto. generalize (h - Z.abs j) as k. intros k.
    unfold zsum. induction (zrange w); cbn [map fold_right]; lia.
  - intros x Hx. rewrite <- (count_shift h j) by auto. unfold inside. cbn [fst snd].
    destruct ((0 <=? x + i) && (x + i <? w)); cbn [andb b2z].
    + lia.
    + rewrite zsum_const by lia. lia.
Qed.

(** Directions that lead to another row, the column depending on the row. *)
Lemma count_rows : forall w h (u : Z -> Z) j, 1 <= w -> 1 <= h -> (forall y, -1 <= u y <= 1) ->
  zsum w (fun x => zsum h (fun y => b2z (inside w h (x + u y, y + j))))
  = zsum h (fun y => b2z ((0 <=? y + j) && (y + j <? h)) * (w - Z.abs (u y))).
Proof.
  intros w h u j Hw Hh Hu. rewrite zsum_swap. apply zsum_ext. intros y Hy.
  rewrite <- (count_shift w (u y)) by auto. unfold inside. cbn [fst snd].
  destruct ((0 <=? y + j) && (y + j <? h)).
  - rewrite (zsum_ext _ _ (fun x => b2z ((0 <=? x + u y) && (x + u y <? w)))).
    + unfold b2z at 2. lia.
    + intros x Hx. rewrite andb_true_r. reflexivity.
  - rewrite (zsum_ext _ _ (fun _ => 0)).
    + rewrite zsum_const by lia. unfold b2z at 1. lia.
    + intros x Hx. rewrite andb_false_r. reflexivity.
Qed.

(** From row y up and from row y + 1 down, together. *)
Lemma up_and_down : forall (f g : Z -> Z) k, (forall y, f y + g (y + 1) = k) ->
  forall h, 1 <= h ->
  zsum h (fun y => b2z ((0 <=? y + 1) && (y + 1 <? h)) * f y)
  + zsum h (fun y => b2z ((0 <=? y + -1) && (y + -1 <? h)) * g y) = (h - 1) * k.
Proof.
  intros f g k Hk h Hh.
  assert (H1 : forall n, 0 <= n ->
    zsum (n + 1) (fun y => b2z ((0 <=? y + 1) && (y + 1 <? n + 1)) * f y) = zsum n f).
  { intros n Hn. rewrite zsum_succ by auto.
    rewrite (zsum_ext n _ f); [unfold b2z; destruct ((0 <=? n + 1) && (n + 1 <? n + 1)) eqn:E; lia|].
    intros y Hy. unfold b2z. destruct ((0 <=? y + 1) && (y + 1 <? n + 1)) eqn:E; lia. }
  assert (H2 : forall n, 0 <= n ->
    zsum (n + 1) (fun y => b2z ((0 <=? y + -1) && (y + -1 <? n + 1)) * g y)
    = zsum n (fun y => g (y + 1))).
  { intros n Hn.
    rewrite (zsum_ext _ _ (fun y => if 0 <? y then g y else 0)).
    - revert n Hn. apply (zsum_ind (fun n => zsum (n + 1) (fun y => if 0 <? y then g y else 0)
        = zsum n (fun y => g (y + 1)))); [reflexivity|].
      intros n Hn IH. rewrite zsum_succ by lia. rewrite IH. rewrite (zsum_succ n) by auto.
      replace (0 <? n + 1) with true by lia. reflexivity.
    - intros y Hy. unfold b2z.
      destruct ((0 <=? y + -1) && (y + -1 <? n + 1)) eqn:E; destruct (0 <? y) eqn:E1; lia. }
  specialize (H1 (h - 1) ltac:(lia)). specialize (H2 (h - 1) ltac:(lia)).
  replace (h - 1 + 1) with h in * by lia. rewrite H1, H2, <- zsum_plus.
  rewrite (zsum_ext _ _ (fun _ => k)) by auto. apply zsum_const. lia.
Qed.

Lemma count_up_down : forall w h u u', 1 <= w -> 1 <= h ->
  (forall y, -1 <= u y <= 1) -> (forall y, -1 <= u' y <= 1) ->
  (forall y, Z.abs (u y) + Z.abs (u' (y + 1)) = 1) ->
  zsum w (fun x => zsum h (fun y => b2z (inside w h (x + u y, y + 1))))
  + zsum w (fun x => zsum h (fun y => b2z (inside w h (x + u' y, y + -1))))
  = (h - 1) * (2 * w - 1).
Proof.
  intros w h u u' Hw Hh Hu Hu' Hk. rewrite !count_rows by auto.
  apply (up_and_down (fun y => w - Z.abs (u y)) (fun y => w - Z.abs (u' y))); auto.
  intros y. specialize (Hk y). lia.
Qed.

(** ** Totals *)

Lemma shifted_range : forall co y, 0 <= shifted co y <= 1.
Proof. intros. unfold shifted. lia. Qed.
Lemma shifted_next : forall co y, shifted co (y + 1) = 1 - shifted co y.
Proof. intros. unfold shifted. lia. Qed.

Section Hex.
  Variables w h co : Z.
  Hypothesis (Hw : 1 <= w) (Hh : 1 <= h).

  (** East and the two steps to the other rows in the same direction, seen from the west. *)
  Lemma hex_forward :
    zsum w (fun x => zsum h (fun y => b2z (inside w h (x + shifted co y, y + 1))))
    + (zsum w (fun x => zsum h (fun y => b2z (inside w h (x + 1, y + 0))))
    + zsum w (fun x => zsum h (fun y => b2z (inside w h (x + shifted co y, y + -1)))))
    = hex_total w h.
  Proof using Hw Hh.
    pose proof (count_up_down w h (shifted co) (shifted co) Hw Hh) as H.
    rewrite (count_const w h 1 0) by lia.
    cbv beta in H. unfold hex_total, shifted in *.
    specialize (H ltac:(clear; intros; lia) ltac:(clear; intros; lia) ltac:(clear; intros; lia)).
    lia.
  Qed.
  Lemma hex_backward :
    zsum w (fun x => zsum h (fun y => b2z (inside w h (x + (shifted co y - 1), y + 1))))
    + (zsum w (fun x => zsum h (fun y => b2z (inside w h (x + -1, y + 0))))
    + zsum w (fun x => zsum h (fun y => b2z (inside w h (x + (shifted co y - 1), y + -1)))))
    = hex_total w h.
  Proof using Hw Hh.
    pose proof (count_up_down w h (fun y => shifted co y - 1) (fun y => shifted co y - 1) Hw Hh) as H.
    rewrite (count_const w h (-1) 0) by lia.
    cbv beta in H. unfold hex_total, shifted in *.
    specialize (H ltac:(clear; intros; lia) ltac:(clear; intros; lia) ltac:(clear; intros; lia)).
    lia.
  Qed.
End Hex.

Ltac total H := rewrite (length_refs _ _ _ _ _ _ _ _ _ H); clear H;
  cbn [geo_ax square_geometry rect_geometry offset_r_geometry offset_r_loop_geometry
       axial_r_geometry axial_q_geometry axial_r_loop_geometry axial_q_loop_geometry axial_geometry
       directed_axes square_axes diagonal_axes hexr_axes hexq_axes ag_axes ag_dirs ag_fwd map fold_right];
  unfold dir_count; cbn [square_tgt diagonal_tgt hexr_tgt hexq_tgt].

Lemma count_loop : forall w h j, 1 <= w -> 1 <= h -> -1 <= j <= 1 ->
  zsum w (fun _ => zsum h (fun y => b2z ((0 <=? y + j) && (y + j <? h)))) = w * (h - Z.abs j).
Proof.
  intros w h j Hw Hh Hj. rewrite count_shift by auto. apply zsum_const. lia.
Qed.

Ltac loop_total w h :=
  unfold row_inside; cbn [snd]; rewrite !count_loop by lia; unfold hex_loop_total; lia.

Lemma count_total : forall A D E (s : Shape Cell A D) G n (ef : Cell -> A -> E),
  EdgeTotal s G n -> 1 <= sh_horizontal s -> 1 <= sh_vertical s ->
  Z.of_nat (length (spec_edge_references G ef)) = n.
Proof.
  intros A D E s G n ef H. destruct H; cbn [sh_horizontal sh_vertical square_shape square_dir_shape
    diagonal_shape diagonal_dir_shape hex_offset_r hex_offset_r_dir hex_offset_r_lew
    hex_axial_r hex_axial_r_dir hex_axial_q hex_axial_q_dir hex_axial_r_lew hex_axial_r_dir_lew
    hex_axial_q_lew hex_axial_q_dir_lew offset_shape axial_shape axial_lew_shape]; intros Hw Hh.
  - pose proof (square_grid _ square_axes w h eq_refl) as K. total K.
    rewrite !count_const by lia. unfold square_total. lia.
  - pose proof (square_grid _ (directed_axes square_axes) w h eq_refl) as K. total K.
    rewrite !count_const by lia. unfold square_total. lia.
  - pose proof (diagonal_grid _ diagonal_axes w h eq_refl) as K. total K.
    rewrite !count_const by lia. unfold diagonal_total. lia.
  - pose proof (diagonal_grid _ (directed_axes diagonal_axes) w h eq_refl) as K. total K.
    rewrite !count_const by lia. unfold diagonal_total. lia.
  - pose proof (offset_r_grid _ hexr_axes b w h eq_refl) as K. total K.
    pose proof (hex_forward w h (co_r b) Hw Hh). lia.
  - pose proof (offset_r_grid _ (directed_axes hexr_axes) b w h eq_refl) as K. total K.
    pose proof (hex_forward w h (co_r b) Hw Hh). pose proof (hex_backward w h (co_r b) Hw Hh). lia.
  - pose proof (offset_r_loop_grid _ hexr_axes b w h eq_refl ltac:(lia)) as K. total K.
    loop_total w h.
  - pose proof (axial_r_grid _ hexr_axes k b w h eq_refl) as K. total K.
    pose proof (hex_forward w h (co_r b) Hw Hh). lia.
  - pose proof (axial_r_grid _ (directed_axes hexr_axes) k b w h eq_refl) as K. total K.
    pose proof (hex_forward w h (co_r b) Hw Hh). pose proof (hex_backward w h (co_r b) Hw Hh). lia.
  - pose proof (axial_q_grid _ hexq_axes k b w h eq_refl) as K. total K.
    pose proof (hex_forward w h (co_q b) Hw Hh). lia.
  - pose proof (axial_q_grid _ (directed_axes hexq_axes) k b w h eq_refl) as K. total K.
    pose proof (hex_forward w h (co_q b) Hw Hh). pose proof (hex_backward w h (co_q b) Hw Hh). lia.
  - pose proof (axial_r_loop_grid _ hexr_axes k b w h eq_refl ltac:(lia)) as K. total K.
    loop_total w h.
  - pose proof (axial_r_loop_grid _ (directed_axes hexr_axes) k b w h eq_refl ltac:(lia)) as K. total K.
    loop_total w h.
  - pose proof (axial_q_loop_grid _ hexq_axes k b w h eq_refl ltac:(lia)) as K. total K.
    loop_total w h.
  - pose proof (axial_q_loop_grid _ (directed_axes hexq_axes) k b w h eq_refl ltac:(lia)) as K. total K.
    loop_total w h.
Qed.

Lemma c54 : forall A D N E m (s : Shape Cell A D) G n (g : LatticeGraph Cell A D N E) nf ef,
  Supported s G -> EdgeTotal s G n -> 1 <= sh_horizontal s -> 1 <= sh_vertical s ->
  Built m s G g nf ef ->
  exists l, Drains (edge_references_next m g) (edge_references g) l /\ Z.of_nat (length l) = n.
Proof.
  intros A D N E m s G n g nf ef SUP HT Hw Hh HB. exists (spec_edge_references G ef).
  split; [apply (c15_drains (st_supported _ _ _ _ SUP) g nf ef HB)|].
  eapply count_total; eauto.
Qed.

Lemma c54_empty : forall A D N E m (s : Shape Cell A D) G (g : LatticeGraph Cell A D N E) nf ef,
  Stored s G -> sh_horizontal s = 0 \/ sh_vertical s = 0 -> Built m s G g nf ef ->
  Drains (edge_references_next m g) (edge_references g) [].
Proof.
  intros A D N E m s G g nf ef STO H0 HB.
  replace [] with (spec_edge_references G ef); [apply (c15_drains STO g nf ef HB)|].
  refine_store m STO. unfold spec_edge_references. rewrite (rf_nodes _ _ _ _ RF).
  assert (Hb : board (sh_horizontal s) (sh_vertical s) cell = []).
  { apply length_zero_iff_nil. pose proof (fits_bounds _ _ (rf_fits _ _ _ _ RF)).
    rewrite board_length by lia. destruct H0 as [-> | ->]; lia. }
  rewrite Hb. reflexivity.
Qed.

Lemma c54_square_axis : forall N E m w h (g : LatticeGraph Cell _ _ N E) nf ef a, fits w h ->
  1 <= w -> 1 <= h ->
  let s := square_shape w h in
  Built m s (square_geometry square_axes w h) g nf ef ->
  exists l d x y, Drains (edge_references_next m g) (edge_references g) l /\
    ax_foward (sh_axis s) m a = Ok d /\
    sh_horizontal_edge_size s m a = Ok x /\ sh_vertical_edge_size s m a = Ok y /\
    Z.of_nat (length (filter (fun r => square_dir_eqb (er_direction r) d) l)) = x * y.
Proof.
  intros N E m w h g nf ef a F Hw Hh s HB. subst s.
  pose proof (sup_square w h F) as SUP. pose proof (fits_bounds _ _ F) as B. rewrite IMAX1_val in B.
  exists (spec_edge_references (square_geometry square_axes w h) ef).
  exists (ag_fwd square_axes a).
  exists (w - match a with SX => 1 | SY => 0 end), (h - match a with SX => 0 | SY => 1 end).
  split; [apply (c15_drains (st_supported _ _ _ _ SUP) g nf ef HB)|].
  split; [destruct a; reflexivity|].
  split; [destruct a; cbn [square_shape sh_horizontal_edge_size];
          rewrite ?usize_sub_ok by (rewrite USIZE_val; lia); do 2 f_equal; lia|].
  split; [destruct a; cbn [square_shape sh_vertical_edge_size];
          rewrite ?usize_sub_ok by (rewrite USIZE_val; lia); do 2 f_equal; lia|].
  rewrite (length_refs_dir _ _ _ _ ef w h _ _ (fun d => square_dir_eqb d (ag_fwd square_axes a)) a
             (square_grid _ square_axes w h eq_refl)).
  - unfold dir_count. destruct a; cbn [geo_ax square_geometry rect_geometry square_axes ag_fwd square_tgt];
      rewrite count_const by lia; lia.
  - intros []; destruct a; cbn; split; congruence.
  - cbn. repeat constructor; cbn; intuition congruence.
  - destruct a; cbn; auto.
Qed.
