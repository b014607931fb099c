(** * OffboardMore: [neighbors] of coordinates outside of the other boards (C56). *)

From Verif Require Import Machine Store Axes Shapes Lattice Spec Basics AxisProofs GeoProofs
  ShapeProofs StoreProofs GraphProofs RepProofs IterProofs EdgeProofs Main1 Spec2 QuirkProofs
  OffboardProofs Spec10.
From Coq Require Import ZifyBool ZifyNat.
Ltac Zify.zify_post_hook ::= Z.div_mod_to_equations.

Definition hd_opt {X} (l : list X) : option X := match l with x :: _ => Some x | [] => None end.
Definition short {X} (l : list X) : Prop := (length l <= 1)%nat.

Lemma off_list : forall A D N E m (s : Shape Cell A D) G cell (RF : Refines m s G cell)
  (g : LatticeGraph Cell A D N E) c (f : D -> list Cell), g_s g = s ->
  (forall d, short (f d)) -> (forall d, sh_move_coord s m c d = Ok (hd_opt (f d))) ->
  Drains (neighbors_next m g c) (neighbors g c) (flat_map f (ag_dirs (geo_ax G))).
Proof.
  intros A D N E m s G cell RF g c f Hs Hl Hf.
  eapply eq_ind with (P := fun l => Drains _ _ l);
    [exact (off_neighbors RF g c (fun d => hd_opt (f d)) Hs Hf)|].
  apply flat_map_ext'. intros d. specialize (Hl d). unfold short in Hl.
  destruct (f d) as [|x [|y l]]; cbn in *; auto; lia.
Qed.

Lemma one_sided_short : forall w h c v, short (one_sided_step w h c v).
Proof. intros. unfold one_sided_step, short. destruct (_ && _); cbn; lia. Qed.
Lemma one_sided_loop_short : forall w h c v, short (one_sided_loop_step w h c v).
Proof. intros. unfold one_sided_loop_step, short. destruct (_ && _); cbn; lia. Qed.
Lemma listed_short : forall X (o : option X), short (listed o).
Proof. intros X []; unfold short; cbn; lia. Qed.
Lemma hd_listed : forall X (o : option X), hd_opt (listed o) = o.
Proof. intros X []; reflexivity. Qed.

Lemma offset_next_cases : forall b c d t, offset_r_pos b t = vadd (offset_r_pos b c) (hexr_vec d) ->
  snd t = snd c + snd (hexr_vec d) /\
  2 * fst t = 2 * fst c + fst (hexr_vec d) +
    (if parity_is c (r_flag b) then (if Z.odd (snd (hexr_vec d)) then -1 else 0)
     else (if Z.odd (snd (hexr_vec d)) then 1 else 0)).
Proof.
  intros b [x y] d [tx ty] H. unfold offset_r_pos, vadd, parity_is in *.
  destruct b, d; cbn [hexr_vec fst snd r_flag Z.odd] in *;
    apply pair_inv in H; destruct H as [H1 H2];
    (split; [lia|]); destruct (_ =? _) eqn:E; lia.
Qed.

Lemma offset_r_off : forall b w h m c d t, fits w h ->
  0 <= fst c < 2 ^ 64 - 1 -> 0 <= snd c < 2 ^ 64 - 1 ->
  offset_r_pos b t = vadd (offset_r_pos b c) (hexr_vec d) ->
  offset_move_r w h (r_flag b) m c d = Ok (hd_opt (one_sided_step w h c (vsub t c))).
Proof.
  intros b w h m [x y] d [tx ty] F Hx Hy Ht. cbn [fst snd] in Hx, Hy.
  change (2 ^ 64 - 1) with 18446744073709551615 in Hx, Hy.
  apply fits_bounds in F. rewrite IMAX1_val in F.
  apply offset_next_cases in Ht. destruct Ht as [H1 H2].
  unfold one_sided_step, vadd, vsub. cbn [fst snd] in *. unfold offset_move_r.
  destruct (parity_is (x, y) (r_flag b)); destruct d;
    cbn [hexr_vec fst snd] in H1, H2; cbn [Z.odd] in H2; moves;
    cbn [hd_opt]; try reflexivity; try lia; apply f_equal; apply f_equal; apply pair_eq; lia.
Qed.

Lemma offset_r_loop_off : forall b w h m c d t, fits w h -> 1 <= w ->
  0 <= fst c < 2 ^ 64 - 1 -> 0 <= snd c < 2 ^ 64 - 1 ->
  offset_r_pos b t = vadd (offset_r_pos b c) (hexr_vec d) ->
  offset_move_r_lew w h (r_flag b) m c d = Ok (hd_opt (one_sided_loop_step w h c t)).
Proof.
  intros b w h m [x y] d [tx ty] F Hw Hx Hy Ht. cbn [fst snd] in Hx, Hy.
  change (2 ^ 64 - 1) with 18446744073709551615 in Hx, Hy.
  apply fits_bounds in F. rewrite IMAX1_val in F.
  apply offset_next_cases in Ht. destruct Ht as [H1 H2].
  unfold one_sided_loop_step. cbn [fst snd] in *. unfold offset_move_r_lew.
  destruct (parity_is (x, y) (r_flag b)); destruct d;
    cbn [hexr_vec fst snd] in H1, H2; cbn [Z.odd] in H2; moves;
    cbn [hd_opt]; try reflexivity; try lia; apply f_equal; apply f_equal; apply pair_eq; lia.
Qed.

Lemma double_off : forall w h m c d, fits w h ->
  0 <= fst c < 2 ^ 64 - 2 -> 0 <= snd c < 2 ^ 64 - 1 ->
  double_move_r w h m c d = Ok (hd_opt (one_sided_step w h c (hexr_vec d))).
Proof.
  intros w h m [x y] d F Hx Hy. cbn [fst snd] in Hx, Hy.
  change (2 ^ 64 - 1) with 18446744073709551615 in Hy.
  change (2 ^ 64 - 2) with 18446744073709551614 in Hx.
  apply fits_bounds in F. rewrite IMAX1_val in F.
  unfold one_sided_step, vadd. cbn [fst snd]. unfold double_move_r, checked_sub.
  destruct d; cbn [hexr_vec fst snd]; moves; cbn [hd_opt]; try reflexivity; try lia;
    apply f_equal; apply f_equal; apply pair_eq; lia.
Qed.

(** ** The axial loop *)

Lemma mod_up : forall a w n, 0 < w -> 0 <= a + n * w < w -> a mod w = a + n * w.
Proof. intros a w n Hw H. symmetry. apply Z.mod_unique with (q := - n); [left; auto|ring]. Qed.

Lemma wrap_up_value : forall m w min r, 1 <= w < IMAX1 -> min <= 0 -> - IMAX1 <= r < min ->
  wrap_up m w min r = Ok (min + (r - min) mod w).
Proof.
  intros m w min r Hw Hmin Hr. rewrite IMAX1_val in *.
  enough (H : forall n r, - 9223372036854775808 <= r < min -> min - r <= Z.of_nat n ->
    exists k, (k <= n)%nat /\
      Rounds (fun r => let! r' := isize_add m r w in
                       Ok (if r' <? min then inl r' else inr r')) k r
        (Ok (min + (r - min) mod w))).
  { destruct (H (Z.to_nat (min - r)) r Hr ltac:(lia)) as (k & Hk & HR).
    unfold wrap_up. eapply loop_rounds; [exact HR|]. clear - Hk Hr Hmin. lia. }
  clear r Hr. induction n as [|n IH]; intros r Hr Hn; [clear - Hr Hn; lia|].
  assert (Hadd : isize_add m r w = Ok (r + w))
    by (apply isize_add_ok; rewrite IMAX1_val; clear - Hr Hw Hmin; lia).
  assert (Hmod : (r + w - min) mod w = (r - min) mod w).
  { replace (r + w - min) with (r - min + 1 * w) by (clear; lia). apply Z.mod_add. clear - Hw; lia. }
  destruct (r + w <? min) eqn:E.
  - destruct (IH (r + w)) as (k & Hk & HR); [clear - Hr Hw Hmin E Hn; lia..|].
    exists (S k). split; [clear - Hk; lia|]. eapply R_more; [|rewrite <- Hmod; exact HR].
    cbv beta. rewrite Hadd. cbn [bind]. rewrite E. reflexivity.
  - exists 0%nat. split; [clear; lia|]. apply R_done.
    cbv beta. rewrite Hadd. cbn [bind]. rewrite E.
    rewrite (mod_up (r - min) w 1) by (clear - Hw E Hr; lia). do 2 f_equal. clear. lia.
Qed.

Lemma wrap_down_value : forall m w max r, 1 <= w < IMAX1 -> w <= max -> max <= r < IMAX1 ->
  wrap_down m w max r = Ok (max - w + (r - (max - w)) mod w).
Proof.
  intros m w max r Hw Hmax Hr. rewrite IMAX1_val in *.
  enough (H : forall n r, max - w <= r < 9223372036854775808 -> r - max < Z.of_nat n ->
    exists k, (k <= n)%nat /\
      Rounds (fun r => if max <=? r
                 then let! r' := isize_sub m r w in Ok (inl r')
                 else Ok (inr r)) k r (Ok (max - w + (r - (max - w)) mod w))).
  { destruct (H (Z.to_nat (r - max + 1)) r ltac:(clear - Hw Hr; lia) ltac:(clear - Hw Hr; lia))
      as (k & Hk & HR).
    unfold wrap_down. eapply loop_rounds; [exact HR|]. clear - Hk Hr Hw Hmax. lia. }
  clear r Hr. induction n as [|n IH]; intros r Hr Hn.
  - exists 0%nat. split; [clear; lia|]. apply R_done. cbv beta.
    replace (max <=? r) with false by (clear - Hn; lia).
    rewrite Z.mod_small by (clear - Hr Hn; lia). do 2 f_equal. clear. lia.
  - destruct (max <=? r) eqn:E.
    + assert (Hsub : isize_sub m r w = Ok (r - w))
        by (apply isize_sub_ok; rewrite IMAX1_val; clear - Hw Hmax Hr E; lia).
      destruct (IH (r - w)) as (k & Hk & HR); [clear - Hw Hr E Hn; lia..|].
      exists (S k). split; [clear - Hk; lia|]. eapply R_more.
      { cbv beta. rewrite E, Hsub. reflexivity. }
      replace ((r - (max - w)) mod w) with ((r - w - (max - w)) mod w); [exact HR|].
      replace (r - (max - w)) with (r - w - (max - w) + 1 * w) by (clear; lia).
      symmetry. apply Z.mod_add. clear - Hw. lia.
    + exists 0%nat. split; [clear; lia|]. apply R_done. cbv beta. rewrite E.
      rewrite Z.mod_small by (clear - Hr E; lia). do 2 f_equal. clear. lia.
Qed.

Lemma axial_lew_off : forall D k mv co w h m (c : Z * Z) (d : D) r q,
  0 <= co <= 1 -> fits w h -> axial_fits k co w h -> 1 <= w ->
  mv m c d = Ok (r, q) -> - 2 ^ 62 - 1 <= r <= 2 ^ 62 + 1 -> - 2 ^ 62 - 1 <= q <= 2 ^ 62 + 1 ->
  rep k r q ->
  axial_move_coord_lew k mv co w h m c d = Ok (axial_wrap co w h (r, q)).
Proof.
  intros D k mv co w h m c d r q Hco F Hf Hw Hmv Hr Hq Hrep.
  change (2 ^ 62) with 4611686018427387904 in *.
  assert (W : 0 <= h -> 0 < h -> w + h <= IMAX1).
  { intros _ Hh. destruct F as (_ & _ & F). rewrite IMAX1_val in *.
    replace (Z.max 1 w) with w in F by lia. replace (Z.max 1 h) with h in F by lia.
    change (2 ^ 63) with 9223372036854775808 in F. nia. }
  apply fits_bounds in F. rewrite IMAX1_val in *.
  unfold axial_move_coord_lew. rewrite Hmv. cbn [bind fst snd]. unfold axial_wrap. cbn [fst snd].
  destruct (0 <=? q) eqn:E1; cbn [andb].
  - rewrite as_usize_nonneg by (rewrite USIZE_val; lia).
    rewrite Z.leb_antisym. destruct (q <? h) eqn:E2; cbn [negb]; [|reflexivity].
    specialize (W ltac:(lia) ltac:(lia)).
    rewrite isize_add_ok by (rewrite IMAX1_val; lia). cbn [bind].
    unfold isize_half. rewrite Z.quot_div_nonneg by lia.
    assert (Hh : 0 <= (q + co) / 2 <= (h - 1 + co) / 2) by lia.
    set (s := (q + co) / 2) in *. assert (Hs : s <= h) by (subst s; lia). clearbody s.
    unfold isize_neg. rewrite wrap_isize_ok by (rewrite IMAX1_val; lia). cbn [bind].
    rewrite as_isize_small by (rewrite IMAX1_val; lia).
    destruct (r <? - s) eqn:E3.
    + rewrite wrap_up_value by (rewrite ?IMAX1_val; lia). cbn [bind].
      assert (Hm : 0 <= (r - - s) mod w < w) by (apply Z.mod_pos_bound; lia).
      set (z := (r - - s) mod w) in *. clearbody z.
      rewrite ha_new_ok; [reflexivity|].
      destruct k; unfold rep, axial_fits in *; auto. lia.
    + rewrite isize_sub_ok by (rewrite IMAX1_val; lia). cbn [bind]. rewrite Z.sub_opp_r.
      destruct (w + s <=? r) eqn:E4.
      * rewrite wrap_down_value by (rewrite ?IMAX1_val; lia). cbn [bind].
        replace (w + s - w) with s by lia. replace (r + - s) with (r - s) by lia.
        rewrite Z.opp_involutive.
        assert (Hm : 0 <= (r - s) mod w < w) by (apply Z.mod_pos_bound; lia).
        assert (Hle : (r - s) mod w <= r - s) by (apply Z.mod_le; lia).
        set (z := (r - s) mod w) in *. clearbody z.
        rewrite ha_new_ok; [reflexivity|].
        destruct k; unfold rep, axial_fits in *; auto. lia.
      * rewrite wrap_down_zero by lia. cbn [bind]. rewrite ha_new_ok by auto. reflexivity.
  - rewrite as_usize_neg by (rewrite USIZE_val; lia).
    replace (h <=? q + USIZE) with true by (rewrite USIZE_val; lia). reflexivity.
Qed.

Lemma axial_r_step : forall k m c d t, near_ok k c ->
  axial_r_pos t = vadd (axial_r_pos c) (hexr_vec d) ->
  axial_move_r k m c d = Ok t /\ rep k (fst t) (snd t) /\
  fst c - 1 <= fst t <= fst c + 1 /\ snd c - 1 <= snd t <= snd c + 1.
Proof.
  intros k m [r q] d [tr tq] Hn Ht. pose proof Hn as (_ & _ & B1 & B2). cbn [fst snd] in B1, B2.
  change (2 ^ 62) with 4611686018427387904 in B1, B2.
  unfold axial_r_pos, vadd in Ht. cbn [fst snd] in *.
  destruct d; cbn [hexr_vec fst snd] in Ht; apply pair_inv in Ht; destruct Ht as [H1 H2];
    unfold axial_move_r; usimp;
    (rewrite ha_new_ok by (eapply near_rep; eauto; lia));
    (split; [apply f_equal; apply pair_eq; lia|]);
    (split; [eapply near_rep; eauto; lia|lia]).
Qed.
Lemma axial_q_step : forall k m c d t, near_ok k c ->
  axial_q_pos t = vadd (axial_q_pos c) (hexq_vec d) ->
  axial_move_q k m c d = Ok t /\ rep k (fst t) (snd t) /\
  fst c - 1 <= fst t <= fst c + 1 /\ snd c - 1 <= snd t <= snd c + 1.
Proof.
  intros k m [r q] d [tr tq] Hn Ht. pose proof Hn as (_ & _ & B1 & B2). cbn [fst snd] in B1, B2.
  change (2 ^ 62) with 4611686018427387904 in B1, B2.
  unfold axial_q_pos, vadd in Ht. cbn [fst snd] in *.
  destruct d; cbn [hexq_vec fst snd] in Ht; apply pair_inv in Ht; destruct Ht as [H1 H2];
    unfold axial_move_q; usimp;
    (rewrite ha_new_ok by (eapply near_rep; eauto; lia));
    (split; [apply f_equal; apply pair_eq; lia|]);
    (split; [eapply near_rep; eauto; lia|lia]).
Qed.

(** ** C56 *)

Lemma c56_offset : forall b w h A N E (s : Shape Cell A AxisDR) G m
  (g : LatticeGraph Cell A AxisDR N E) nf ef c nx,
  OffsetKind b w h s G -> Built m s G g nf ef ->
  0 <= fst c < 2 ^ 64 - 1 -> 0 <= snd c < 2 ^ 64 - 1 ->
  (forall d, offset_r_pos b (nx d) = vadd (offset_r_pos b c) (hexr_vec d)) ->
  Drains (neighbors_next m g c) (neighbors g c)
    (flat_map (fun d => one_sided_step w h c (vsub (nx d) c)) (ag_dirs (geo_ax G))).
Proof.
  intros b w h A N E s G m g nf ef c nx OK HB Hx Hy Hn.
  assert (SUP : Supported s G) by (destruct OK; constructor; auto).
  refine_shape m SUP. pose proof (RepProofs.built_rep RF _ _ _ HB) as [Hs _].
  apply (off_list _ _ _ _ _ _ _ _ RF g c _ Hs); [intros; apply one_sided_short|].
  intros d. destruct OK; cbn [hex_offset_r hex_offset_r_dir offset_shape sh_move_coord];
    apply offset_r_off; auto.
Qed.

Lemma c56_offset_loop : forall b w h N E m (g : LatticeGraph Cell AxisR AxisDR N E) nf ef c nx,
  fits w h -> 1 <= w ->
  Built m (hex_offset_r_lew b w h) (offset_r_loop_geometry hexr_axes b w h) g nf ef ->
  0 <= fst c < 2 ^ 64 - 1 -> 0 <= snd c < 2 ^ 64 - 1 ->
  (forall d, offset_r_pos b (nx d) = vadd (offset_r_pos b c) (hexr_vec d)) ->
  Drains (neighbors_next m g c) (neighbors g c)
    (flat_map (fun d => one_sided_loop_step w h c (nx d)) (ag_dirs hexr_axes)).
Proof.
  intros b w h N E m g nf ef c nx F Hw HB Hx Hy Hn.
  pose proof (sup_offset_r_loop b w h F) as SUP.
  refine_shape m SUP. pose proof (RepProofs.built_rep RF _ _ _ HB) as [Hs _].
  apply (off_list _ _ _ _ _ _ _ _ RF g c _ Hs); [intros; apply one_sided_loop_short|].
  intros d. cbn [hex_offset_r_lew offset_shape sh_move_coord]. apply offset_r_loop_off; auto.
Qed.

Lemma c56_double : forall w h N E m (g : LatticeGraph Cell AxisR AxisDR N E) nf ef c,
  fits w h -> Built m (double_shape w h) (double_code_geometry w h) g nf ef ->
  0 <= fst c < 2 ^ 64 - 2 -> 0 <= snd c < 2 ^ 64 - 1 ->
  Drains (neighbors_next m g c) (neighbors g c)
    (flat_map (fun d => one_sided_step w h c (hexr_vec d)) (ag_dirs hexr_axes)).
Proof.
  intros w h N E m g nf ef c F HB Hx Hy. pose proof (st_double w h F) as STO.
  refine_store m STO. pose proof (RepProofs.built_rep RF _ _ _ HB) as [Hs _].
  apply (off_list _ _ _ _ _ _ _ _ RF g c _ Hs); [intros; apply one_sided_short|].
  intros d. cbn [double_shape sh_move_coord]. apply double_off; auto.
Qed.

Lemma c56_axial_loop : forall k w h A D N E co pos vec (s : Shape Cell A D) G m
  (g : LatticeGraph Cell A D N E) nf ef c nx,
  AxialLooped k w h co pos vec s G -> 1 <= w -> Built m s G g nf ef -> near_ok k c ->
  (forall d, pos (nx d) = vadd (pos c) (vec d)) ->
  Drains (neighbors_next m g c) (neighbors g c)
    (flat_map (fun d => listed (axial_wrap co w h (nx d))) (ag_dirs (geo_ax G))).
Proof.
  intros k w h A D N E co pos vec s G m g nf ef c nx AL Hw HB Hn Hx.
  assert (STO : Stored s G) by (destruct AL; constructor; auto).
  refine_store m STO. pose proof (RepProofs.built_rep RF _ _ _ HB) as [Hs _].
  apply (off_list _ _ _ _ _ _ _ _ RF g c _ Hs); [intros; apply listed_short|].
  intros d. rewrite hd_listed. specialize (Hx d). pose proof Hn as (_ & _ & B1 & B2).
  destruct AL as [b F Hf|b F Hf|b F Hf|b F Hf];
  cbn [hex_axial_r_lew hex_axial_r_dir_lew hex_axial_q_lew hex_axial_q_dir_lew axial_lew_shape
    sh_move_coord];
  [ destruct (axial_r_step k m c d (nx d) Hn Hx) as (H1 & H2 & H3 & H4); pose proof (co_r_range b)
  | destruct (axial_r_step k m c d (nx d) Hn Hx) as (H1 & H2 & H3 & H4); pose proof (co_r_range b)
  | destruct (axial_q_step k m c d (nx d) Hn Hx) as (H1 & H2 & H3 & H4); pose proof (co_q_range b)
  | destruct (axial_q_step k m c d (nx d) Hn Hx) as (H1 & H2 & H3 & H4); pose proof (co_q_range b)];
  destruct (nx d) as [tr tq]; cbn [fst snd] in *;
  [ replace (convert_offset (r_is_even b)) with (co_r b) by (destruct b; reflexivity)
  | replace (convert_offset (r_is_even b)) with (co_r b) by (destruct b; reflexivity)
  | replace (convert_offset (q_is_even b)) with (co_q b) by (destruct b; reflexivity)
  | replace (convert_offset (q_is_even b)) with (co_q b) by (destruct b; reflexivity)];
  apply axial_lew_off; auto; lia.
Qed.

(** ** Columns of hexagons *)

Lemma lifted_parity : forall b c, lifted b c = parity_is c (q_flag b).
Proof.
  intros b [x y]. unfold lifted, parity_is. cbn [fst snd].
  destruct b; cbn [q_flag]; rewrite ?Zmod_odd, ?Zmod_even;
    [rewrite <- Z.negb_odd|]; destruct (Z.odd y); reflexivity.
Qed.

Lemma offset_q_off : forall b w h m c d, fits w h ->
  0 <= fst c < 2 ^ 64 - 1 -> 0 <= snd c < 2 ^ 64 - 1 ->
  offset_move_q w h (q_flag b) m c d = Ok (hd_opt (q_step b w h c d)).
Proof.
  intros b w h m [x y] d F Hx Hy. cbn [fst snd] in Hx, Hy.
  change (2 ^ 64 - 1) with 18446744073709551615 in Hx, Hy.
  apply fits_bounds in F. rewrite IMAX1_val in F.
  unfold q_step, one_sided_step, q_vec, vadd. rewrite lifted_parity. cbn [fst snd] in *.
  unfold offset_move_q.
  destruct (parity_is (x, y) (q_flag b)); destruct d; cbn [negb]; moves;
    cbn [hd_opt]; try reflexivity; try lia; apply f_equal; apply f_equal; apply pair_eq; lia.
Qed.

Lemma offset_q_loop_off : forall b w h m c d, fits w h -> 1 <= w ->
  0 <= fst c < 2 ^ 64 - 1 -> 0 <= snd c < 2 ^ 64 - 1 ->
  offset_move_q_lew w h (q_flag b) m c d = Ok (hd_opt (q_loop_step b w h c d)).
Proof.
  intros b w h m [x y] d F Hw Hx Hy. cbn [fst snd] in Hx, Hy.
  change (2 ^ 64 - 1) with 18446744073709551615 in Hx, Hy.
  apply fits_bounds in F. rewrite IMAX1_val in F.
  unfold q_loop_step, q_loop_vec. rewrite lifted_parity.
  unfold offset_move_q_lew.
  destruct (parity_is (x, y) (q_flag b)); destruct d; cbn [negb];
    unfold one_sided_step, one_sided_loop_step, vadd; cbn [fst snd]; moves;
    cbn [hd_opt]; try reflexivity; try lia; apply f_equal; apply f_equal; apply pair_eq; lia.
Qed.

Lemma c56_columns : forall b w h A N E (s : Shape Cell A AxisDQ) G m
  (g : LatticeGraph Cell A AxisDQ N E) nf ef c,
  OffsetColumns b w h s G -> Built m s G g nf ef ->
  0 <= fst c < 2 ^ 64 - 1 -> 0 <= snd c < 2 ^ 64 - 1 ->
  Drains (neighbors_next m g c) (neighbors g c) (flat_map (q_step b w h c) (ag_dirs (geo_ax G))).
Proof.
  intros b w h A N E s G m g nf ef c OK HB Hx Hy.
  assert (STO : Stored s G) by (destruct OK; constructor; auto).
  refine_store m STO. pose proof (RepProofs.built_rep RF _ _ _ HB) as [Hs _].
  apply (off_list _ _ _ _ _ _ _ _ RF g c _ Hs); [intros; apply one_sided_short|].
  intros d. destruct OK; cbn [hex_offset_q hex_offset_q_dir offset_shape sh_move_coord];
    apply offset_q_off; auto.
Qed.

Lemma c56_columns_loop : forall b w h N E m (g : LatticeGraph Cell AxisQ AxisDQ N E) nf ef c,
  fits w h -> 1 <= w ->
  Built m (hex_offset_q_lew b w h) (rect_code_geometry hexq_axes (hex_offset_q_lew b w h) w h)
    g nf ef ->
  0 <= fst c < 2 ^ 64 - 1 -> 0 <= snd c < 2 ^ 64 - 1 ->
  Drains (neighbors_next m g c) (neighbors g c)
    (flat_map (q_loop_step b w h c) (ag_dirs hexq_axes)).
Proof.
  intros b w h N E m g nf ef c F Hw HB Hx Hy. pose proof (st_offset_q_loop b w h F) as STO.
  refine_store m STO. pose proof (RepProofs.built_rep RF _ _ _ HB) as [Hs _].
  apply (off_list _ _ _ _ _ _ _ _ RF g c _ Hs).
  - intros d. unfold q_loop_step. destruct (q_loop_vec b c d) as [u []];
      [apply one_sided_loop_short|apply one_sided_short].
  - intros d. cbn [hex_offset_q_lew offset_shape sh_move_coord]. apply offset_q_loop_off; auto.
Qed.
