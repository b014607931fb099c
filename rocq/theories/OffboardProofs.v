(** * OffboardProofs: [neighbors] and [is_adjacent] of coordinates outside of the board (C56). *)

From Verif Require Import Machine Store Axes Shapes Lattice Spec Basics AxisProofs GeoProofs
  ShapeProofs StoreProofs GraphProofs RepProofs IterProofs EdgeProofs Main1 Spec2 QuirkProofs.
From Coq Require Import ZifyBool ZifyNat.
Ltac Zify.zify_post_hook ::= Z.div_mod_to_equations.

(** Sufficient for [t] to be found from [c]: the moves before the one that leads there do not
    fail. *)
Definition Leads {A D} (m : mode) (s : Shape Cell A D) (dirs : list D) (c t : Cell) : Prop :=
  exists p d q, dirs = p ++ d :: q /\
    (forall d', In d' p -> exists o, sh_move_coord s m c d' = Ok o) /\
    sh_move_coord s m c d = Ok (Some t).

Section Lead.
  Context {A D N E : Type} {m : mode} {s : Shape Cell A D} {G : Geometry A D}
    {cell : Z -> Z -> Cell} (RF : Refines m s G cell).
  Notation ax := (sh_axis s).
  Notation graph := (LatticeGraph Cell A D N E).
  Let AX : AxisOK m ax (geo_ax G) := rf_axis _ _ _ _ RF.

  Lemma lead_nth : forall c t p d q i, ag_dirs (geo_ax G) = p ++ d :: q ->
    (forall d', In d' p -> exists o, sh_move_coord s m c d' = Ok o) ->
    sh_move_coord s m c d = Ok (Some t) -> (i <= length p)%nat ->
    exists d' o, dir_from_index_unchecked (ax_dir ax) m i = Ok d' /\
      (i < ax_UNDIRECTED_COUNT ax)%nat /\
      sh_move_coord s m c d' = Ok o /\ (i = length p -> o = Some t).
  Proof using RF AX.
    intros c t p d q i Hd Hp Ht Hi.
    assert (Hl : (i < ax_UNDIRECTED_COUNT ax)%nat).
    { rewrite (ao_ucount _ _ _ AX), Hd, app_length. cbn [length]. lia. }
    destruct (Nat.eq_dec i (length p)) as [->|Hne].
    - exists d, (Some t). split; [|split; [|split]]; auto.
      apply (ao_dir_from_index_unchecked _ _ _ AX). rewrite Hd, nth_error_app2, Nat.sub_diag by lia.
      reflexivity.
    - destruct (nth_error p i) as [d'|] eqn:Ed; [|apply nth_error_None in Ed; lia].
      destruct (Hp d') as (o & Ho); [eapply nth_error_In; eauto|].
      exists d', o. split; [|split; [|split]]; auto; [|lia].
      apply (ao_dir_from_index_unchecked _ _ _ AX). rewrite Hd, nth_error_app1 by lia. auto.
  Qed.

  Lemma lead_neighbors : forall (g : graph) c t, g_s g = s -> Leads m s (ag_dirs (geo_ax G)) c t ->
    exists l st, Consumed (neighbors_next m g c) (neighbors g c) l st /\ In t l.
  Proof using RF AX.
    intros g c t Hs (p & d & q & Hd & Hp & Ht).
    assert (H : forall n i, (i + n = length p)%nat -> exists l st,
      Consumed (neighbors_next m g c) i l st /\ In t l).
    { induction n as [|n IH]; intros i Hi;
        destruct (lead_nth c t p d q i Hd Hp Ht) as (d' & o & H1 & H2 & H3 & H4); try lia.
      - rewrite H4 in H3 by lia. exists [t], (S i). split; [|left; auto].
        eapply Consumed_cons; [|constructor]. unfold neighbors_next. rewrite Hs.
        destruct (ax_UNDIRECTED_COUNT ax - i)%nat eqn:Er; [lia|]. cbn [neighbors_loop].
        rewrite H1. cbn [bind]. rewrite H3. reflexivity.
      - destruct (IH (S i)) as (l & st & C & Hl); [lia|].
        assert (Er : (ax_UNDIRECTED_COUNT ax - i = S (ax_UNDIRECTED_COUNT ax - S i))%nat) by lia.
        destruct o as [t'|].
        + exists (t' :: l), st. split; [|right; auto].
          eapply Consumed_cons; [|exact C]. unfold neighbors_next. rewrite Hs, Er.
          cbn [neighbors_loop]. rewrite H1. cbn [bind]. rewrite H3. reflexivity.
        + exists l, st. split; auto. destruct l as [|x l]; [contradiction|].
          inversion_clear C as [|? ? it1 ? ? Hn C'].
          eapply Consumed_cons; [|exact C']. rewrite <- Hn. unfold neighbors_next. rewrite Hs, Er.
          cbn [neighbors_loop]. rewrite H1. cbn [bind]. rewrite H3. reflexivity. }
    apply (H (length p) 0%nat). lia.
  Qed.

  Lemma lead_direction : forall c t, Leads m s (ag_dirs (geo_ax G)) c t ->
    exists d, sh_get_direction s m c t = Ok (Some d).
  Proof using RF AX.
    intros c t (p & d & q & Hd & Hp & Ht). unfold sh_get_direction, default_get_direction.
    assert (H : forall n i, (i + n = length p)%nat -> exists d',
      get_direction_from ax (sh_eqb s) (sh_move_coord s) m c t (ax_UNDIRECTED_COUNT ax - i) i
        = Ok (Some d')).
    { induction n as [|n IH]; intros i Hi;
        destruct (lead_nth c t p d q i Hd Hp Ht) as (d' & o & H1 & H2 & H3 & H4); try lia;
        (replace (ax_UNDIRECTED_COUNT ax - i)%nat with (S (ax_UNDIRECTED_COUNT ax - S i)) by lia);
        cbn [get_direction_from]; rewrite H1; cbn [bind].
      - rewrite H4 in H3 by lia. rewrite H3. cbn [bind].
        rewrite (proj2 (rf_eqb _ _ _ _ RF t t) eq_refl). eauto.
      - destruct (IH (S i)) as (d2 & E2); [lia|]. rewrite H3. cbn [bind].
        destruct o as [t'|]; eauto. destruct (sh_eqb s t' t); eauto. }
    destruct (H (length p) 0%nat) as (d' & Hd'); [lia|]. rewrite Nat.sub_0_r in Hd'. eauto.
  Qed.
End Lead.

(** ** On every board with a cell there is a coordinate next to it from which it is found *)

Lemma square_moves_ok : forall w h m x y d, 0 <= x < IMAX1 -> 0 <= y < IMAX1 ->
  exists o, square_move_coord w h m (x, y) d = Ok o.
Proof.
  intros w h m x y d Hx Hy. rewrite IMAX1_val in *.
  destruct d; unfold square_move_coord; moves; eauto.
Qed.

Lemma diagonal_moves_ok : forall w h m x y d, 0 <= x < IMAX1 -> 0 <= y < IMAX1 ->
  exists o, diagonal_move_coord w h m (x, y) d = Ok o.
Proof.
  intros w h m x y d Hx Hy. rewrite IMAX1_val in *.
  destruct d; unfold diagonal_move_coord; moves; eauto.
Qed.

Lemma offset_r_moves_ok : forall w h f m x y d, 0 <= x < IMAX1 -> 0 <= y < IMAX1 ->
  exists o, offset_move_r w h f m (x, y) d = Ok o.
Proof.
  intros w h f m x y d Hx Hy. rewrite IMAX1_val in *. unfold offset_move_r.
  destruct d, (parity_is (x, y) f); moves; eauto.
Qed.

Lemma offset_r_lew_moves_ok : forall w h f m x y d, 1 <= w < IMAX1 -> 0 <= x < IMAX1 ->
  0 <= y < IMAX1 -> exists o, offset_move_r_lew w h f m (x, y) d = Ok o.
Proof.
  intros w h f m x y d Hw Hx Hy. rewrite IMAX1_val in *. unfold offset_move_r_lew.
  destruct d, (parity_is (x, y) f); moves; eauto.
Qed.

Lemma offset_q_moves_ok : forall w h f m x y d, 0 <= x < IMAX1 -> 0 <= y < IMAX1 ->
  exists o, offset_move_q w h f m (x, y) d = Ok o.
Proof.
  intros w h f m x y d Hx Hy. rewrite IMAX1_val in *. unfold offset_move_q.
  destruct d, (negb (parity_is (x, y) f)); moves; eauto.
Qed.

Lemma double_moves_ok : forall w h m x y d, 0 <= x < 2 * IMAX1 - 2 -> 0 <= y < IMAX1 ->
  exists o, double_move_r w h m (x, y) d = Ok o.
Proof.
  intros w h m x y d Hx Hy. rewrite IMAX1_val in *. unfold double_move_r, checked_sub.
  destruct d; usimp; split_ifs; usimp; split_ifs; eauto.
Qed.

(** Every row has q = 0 as its first row and r = 0 as its first cell. *)
Lemma axial_zero : forall co w h, 0 <= co <= 1 -> 1 <= w -> 1 <= h ->
  In (0, 0) (board w h (axial_cell co)) /\ ~ In (-1, 0) (board w h (axial_cell co)).
Proof. intros. split; rewrite ?in_axial; unfold half_row; lia. Qed.

Lemma axial_minus : forall k co w h, axial_fits k co w h -> axial_coord k (-1, 0) \/ h < 0 \/ w < 0.
Proof. intros [|lo hi] co w h; unfold axial_fits, axial_coord; cbn [fst snd]; lia. Qed.

Lemma rep_near : forall k co w h r q, axial_fits k co w h -> 1 <= w -> 1 <= h -> -1 <= r <= 0 ->
  0 <= q <= 1 -> rep k r q.
Proof. intros [|lo hi] co w h r q; unfold axial_fits, rep; auto; lia. Qed.

Lemma axial_west : forall k co w h m r q, 0 <= co <= 1 -> fits w h -> axial_fits k co w h ->
  1 <= w -> 1 <= h -> -1 <= r <= 0 -> 0 <= q <= 1 ->
  exists o, (let! o := axial_to_offset false co w h m (r, q) in
             Ok (match o with Some _ => Some (r, q) | None => None end)) = Ok o /\
            (r = 0 -> q = 0 -> o = Some (0, 0)).
Proof.
  intros k co w h m r q Hco F Hf Hw Hh Hr Hq. apply fits_bounds in F. rewrite IMAX1_val in F.
  rewrite axial_to_offset_ok by (rewrite ?IMAX1_val; unfold half_row; lia). cbn [bind].
  eexists. split; [reflexivity|]. intros -> ->. unfold half_row.
  replace ((0 <=? 0) && (0 <? h) && (0 <=? 0 + (0 + co) / 2) && (0 + (0 + co) / 2 <? w))
    with true by lia. reflexivity.
Qed.

Lemma axial_lew_west : forall k co w h m r q, 0 <= co <= 1 -> fits w h -> axial_fits k co w h ->
  1 <= w -> 1 <= h -> -1 <= r <= 0 -> 0 <= q <= 1 ->
  exists o, (if h <=? as_usize q then Ok None
    else
      let! q2 := isize_add m q co in
      let! min := isize_neg m (isize_half q2) in
      let! r0 := (if r <? min then wrap_up m (as_isize w) min r
           else let! max := isize_sub m (as_isize w) min in wrap_down m (as_isize w) max r) in
      let! c2 := ha_new k m r0 q in Ok (Some c2)) = Ok o /\
    (r = 0 -> q = 0 -> o = Some (0, 0)).
Proof.
  intros k co w h m r q Hco F Hf Hw Hh Hr Hq. pose proof F as F'.
  apply fits_bounds in F. rewrite IMAX1_val in F.
  rewrite as_usize_nonneg by (rewrite USIZE_val; lia).
  destruct (h <=? q) eqn:Eq; [eexists; split; [reflexivity|]; intros; lia|].
  rewrite isize_add_ok by (rewrite IMAX1_val; lia). cbn [bind].
  assert (Ehalf : isize_half (q + co) = (q + co) / 2).
  { unfold isize_half. rewrite Z.quot_div_nonneg; lia. }
  rewrite Ehalf.
  assert (Eneg : isize_neg m ((q + co) / 2) = Ok (- ((q + co) / 2))).
  { unfold isize_neg, wrap_isize. replace ((- IMAX1 <=? - ((q + co) / 2)) && (- ((q + co) / 2) <? IMAX1))
      with true by (rewrite IMAX1_val; lia). reflexivity. }
  rewrite Eneg. cbn [bind]. rewrite as_isize_small by (rewrite IMAX1_val; lia).
  destruct (r <? - ((q + co) / 2)) eqn:Er.
  - assert (r = -1 /\ (q + co) / 2 = 0) as [-> E0] by lia. rewrite E0.
    change (- 0) with 0. rewrite wrap_up_one by (rewrite ?IMAX1_val; lia). cbn [bind].
    rewrite ha_new_ok; [cbn [bind]; eexists; split; [reflexivity|]; intros; lia|].
    destruct k; unfold rep, axial_fits in *; auto; lia.
  - assert (Hb : w + q < 9223372036854775808).
    { destruct (Z.eq_dec q 0); [lia|]. destruct F' as (_ & _ & F').
      change (2 ^ 63) with 9223372036854775808 in F'. rewrite !Z.max_r in F' by lia. nia. }
    rewrite isize_sub_ok by (rewrite IMAX1_val; lia). cbn [bind].
    rewrite wrap_down_zero by lia. cbn [bind].
    rewrite ha_new_ok by (eapply rep_near; eauto; lia). cbn [bind].
    eexists. split; [reflexivity|]. intros -> ->. reflexivity.
Qed.

Lemma axial_move_r_near : forall k co w h m d, axial_fits k co w h -> 1 <= w -> 1 <= h ->
  d = RNE \/ d = RE ->
  axial_move_r k m (-1, 0) d = Ok (match d with RNE => (-1, 1) | _ => (0, 0) end).
Proof.
  intros k co w h m d Hf Hw Hh [->| ->]; unfold axial_move_r; usimp;
    apply ha_new_ok; eapply rep_near; eauto; lia.
Qed.

Lemma axial_move_q_near : forall k co w h m d, axial_fits k co w h -> 1 <= w -> 1 <= h ->
  d = QN \/ d = QNE ->
  axial_move_q k m (-1, 0) d = Ok (match d with QN => (-1, 1) | _ => (0, 0) end).
Proof.
  intros k co w h m d Hf Hw Hh [->| ->]; unfold axial_move_q; usimp;
    apply ha_new_ok; eapply rep_near; eauto; lia.
Qed.

(** What [c56_all] says about one shape. *)
Definition Enters {A D} (m : mode) (s : Shape Cell A D) (G : Geometry A D) : Prop :=
  exists c t, geo_coord G c /\ ~ In c (geo_nodes G) /\ In t (geo_nodes G) /\
    Leads m s (ag_dirs (geo_ax G)) c t /\
    (sh_is_neighbor s = default_is_neighbor (sh_axis s) (sh_eqb s) (sh_move_coord s) \/
     sh_is_neighbor s m c t = Ok true).

Ltac enters_rect w h p d tot :=
  exists (w, 0), (w - 1, 0); split; [cbn; lia|];
  split; [change (~ In (w, 0) (board w h (fun x y => (x, y)))); rewrite in_rect; lia|];
  split; [change (In (w - 1, 0) (board w h (fun x y => (x, y)))); rewrite in_rect; lia|];
  split; [|left; reflexivity];
  exists p, d; eexists; split; [reflexivity|];
  split; [intros d' _; apply tot; rewrite IMAX1_val; lia|];
  cbn [sh_move_coord square_shape square_dir_shape diagonal_shape diagonal_dir_shape
    hex_offset_r hex_offset_r_dir hex_offset_r_lew offset_shape].

Ltac enters_axial w h co p d :=
  exists (-1, 0), (0, 0);
  assert (Z' : In (0, 0) (board w h (axial_cell co)) /\ ~ In (-1, 0) (board w h (axial_cell co)))
    by (apply axial_zero; lia);
  split; [match goal with H : axial_fits _ _ _ _ |- _ =>
            destruct (axial_minus _ _ _ _ H) as [X|X]; [exact X|lia] end|];
  split; [apply Z'|]; split; [apply Z'|]; split; [|left; reflexivity];
  exists [p], d; eexists; split; [reflexivity|].

(** The step before the right one does not fail; the right one leads to (0, 0). *)
Lemma axial_r_enters : forall A (ax : AxisOps A AxisDR) k b w h m, fits w h ->
  axial_fits k (co_r b) w h -> 1 <= w -> 1 <= h ->
  let s := axial_shape ax k (axial_move_r k) (r_is_flat_top b) (r_is_even b) w h in
  (forall d', In d' [RNE] -> exists o, sh_move_coord s m (-1, 0) d' = Ok o) /\
  sh_move_coord s m (-1, 0) RE = Ok (Some (0, 0)).
Proof.
  intros A ax k b w h m F Hf Hw Hh s. subst s. cbn [axial_shape sh_move_coord].
  replace (r_is_flat_top b) with false by (destruct b; reflexivity).
  replace (convert_offset (r_is_even b)) with (co_r b) by (destruct b; reflexivity).
  pose proof (co_r_range b) as Hco. unfold axial_move_coord. split.
  - intros d' [<-|[]]. rewrite (axial_move_r_near k (co_r b) w h) by auto. cbn [bind].
    destruct (axial_west k (co_r b) w h m (-1) 1) as (o & Ho & _); auto; try lia. eauto.
  - rewrite (axial_move_r_near k (co_r b) w h) by auto. cbn [bind].
    destruct (axial_west k (co_r b) w h m 0 0) as (o & Ho & E); auto; try lia.
    rewrite Ho, E by auto. reflexivity.
Qed.

Lemma axial_q_enters : forall A (ax : AxisOps A AxisDQ) k b w h m, fits w h ->
  axial_fits k (co_q b) w h -> 1 <= w -> 1 <= h ->
  let s := axial_shape ax k (axial_move_q k) (q_is_flat_top b) (q_is_even b) w h in
  (forall d', In d' [QN] -> exists o, sh_move_coord s m (-1, 0) d' = Ok o) /\
  sh_move_coord s m (-1, 0) QNE = Ok (Some (0, 0)).
Proof.
  intros A ax k b w h m F Hf Hw Hh s. subst s. cbn [axial_shape sh_move_coord].
  replace (q_is_flat_top b) with false by (destruct b; reflexivity).
  replace (convert_offset (q_is_even b)) with (co_q b) by (destruct b; reflexivity).
  pose proof (co_q_range b) as Hco. unfold axial_move_coord. split.
  - intros d' [<-|[]]. rewrite (axial_move_q_near k (co_q b) w h) by auto. cbn [bind].
    destruct (axial_west k (co_q b) w h m (-1) 1) as (o & Ho & _); auto; try lia. eauto.
  - rewrite (axial_move_q_near k (co_q b) w h) by auto. cbn [bind].
    destruct (axial_west k (co_q b) w h m 0 0) as (o & Ho & E); auto; try lia.
    rewrite Ho, E by auto. reflexivity.
Qed.

Lemma axial_r_lew_enters : forall A (ax : AxisOps A AxisDR) k b w h m, fits w h ->
  axial_fits k (co_r b) w h -> 1 <= w -> 1 <= h ->
  let s := axial_lew_shape ax k (axial_move_r k) (r_is_flat_top b) (r_is_even b) w h in
  (forall d', In d' [RNE] -> exists o, sh_move_coord s m (-1, 0) d' = Ok o) /\
  sh_move_coord s m (-1, 0) RE = Ok (Some (0, 0)).
Proof.
  intros A ax k b w h m F Hf Hw Hh s. subst s. cbn [axial_lew_shape sh_move_coord].
  replace (convert_offset (r_is_even b)) with (co_r b) by (destruct b; reflexivity).
  pose proof (co_r_range b) as Hco. unfold axial_move_coord_lew. split.
  - intros d' [<-|[]]. rewrite (axial_move_r_near k (co_r b) w h) by auto. cbn [bind fst snd].
    destruct (axial_lew_west k (co_r b) w h m (-1) 1) as (o & Ho & _); auto; try lia. eauto.
  - rewrite (axial_move_r_near k (co_r b) w h) by auto. cbn [bind fst snd].
    destruct (axial_lew_west k (co_r b) w h m 0 0) as (o & Ho & E); auto; try lia.
    rewrite Ho, E by auto. reflexivity.
Qed.

Lemma axial_q_lew_enters : forall A (ax : AxisOps A AxisDQ) k b w h m, fits w h ->
  axial_fits k (co_q b) w h -> 1 <= w -> 1 <= h ->
  let s := axial_lew_shape ax k (axial_move_q k) (q_is_flat_top b) (q_is_even b) w h in
  (forall d', In d' [QN] -> exists o, sh_move_coord s m (-1, 0) d' = Ok o) /\
  sh_move_coord s m (-1, 0) QNE = Ok (Some (0, 0)).
Proof.
  intros A ax k b w h m F Hf Hw Hh s. subst s. cbn [axial_lew_shape sh_move_coord].
  replace (convert_offset (q_is_even b)) with (co_q b) by (destruct b; reflexivity).
  pose proof (co_q_range b) as Hco. unfold axial_move_coord_lew. split.
  - intros d' [<-|[]]. rewrite (axial_move_q_near k (co_q b) w h) by auto. cbn [bind fst snd].
    destruct (axial_lew_west k (co_q b) w h m (-1) 1) as (o & Ho & _); auto; try lia. eauto.
  - rewrite (axial_move_q_near k (co_q b) w h) by auto. cbn [bind fst snd].
    destruct (axial_lew_west k (co_q b) w h m 0 0) as (o & Ho & E); auto; try lia.
    rewrite Ho, E by auto. reflexivity.
Qed.

Lemma c56_enters : forall A D (s : Shape Cell A D) G m, Stored s G ->
  1 <= sh_horizontal s -> 1 <= sh_vertical s -> Enters m s G.
Proof.
  intros A D s G m H Hw Hh.
  assert (RQ : forall b w h A' (ax : AxisOps A' AxisDQ) (ag : AxisGeo A' AxisDQ),
    ag_dirs ag = ag_dirs hexq_axes -> fits w h -> 1 <= w -> 1 <= h ->
    Enters m (offset_shape ax (offset_move_q w h (q_flag b)) w h)
      (rect_code_geometry ag (offset_shape ax (offset_move_q w h (q_flag b)) w h) w h)).
  { intros b w h A' ax' ag Hag F Hw' Hh'. apply fits_bounds in F. rewrite IMAX1_val in F.
    exists (w, 0), (w - 1, 0). split; [cbn; lia|].
    split; [change (~ In (w, 0) (board w h (fun x y => (x, y)))); rewrite in_rect; lia|].
    split; [change (In (w - 1, 0) (board w h (fun x y => (x, y)))); rewrite in_rect; lia|].
    split; [|left; reflexivity]. unfold Leads. change (ag_dirs (geo_ax _)) with (ag_dirs ag).
    rewrite Hag.
    destruct b; [exists [QN; QNE; QSE; QS], QSW|exists [QN; QNE], QSE]; eexists;
      (split; [reflexivity|]); (split; [intros d' _; apply offset_q_moves_ok; rewrite IMAX1_val; lia|]);
      cbn [sh_move_coord offset_shape]; unfold offset_move_q, parity_is; cbn [fst snd q_flag];
      [replace (0 mod 2 =? 0) with true by reflexivity|replace (0 mod 2 =? 1) with false by reflexivity];
      cbn [negb]; moves; auto; lia. }
  destruct H as [A D s G H| | | | | | | |]; [destruct H|..];
    match goal with F : fits ?a ?b |- _ => change (1 <= a) in Hw; change (1 <= b) in Hh;
      pose proof F as F'; apply fits_bounds in F'; rewrite IMAX1_val in F' end;
    try pose proof (co_r_range b) as Hco; try pose proof (co_q_range b) as Hco.
  - enters_rect w h [DX; DY] DRX square_moves_ok. unfold square_move_coord. moves; auto; lia.
  - enters_rect w h [DX; DY] DRX square_moves_ok. unfold square_move_coord. moves; auto; lia.
  - enters_rect w h [DN; DNE; DE; DSE; DS; DSW] DW diagonal_moves_ok.
    unfold diagonal_move_coord. moves; auto; lia.
  - enters_rect w h [DN; DNE; DE; DSE; DS; DSW] DW diagonal_moves_ok.
    unfold diagonal_move_coord. moves; auto; lia.
  - enters_rect w h [RNE; RE; RSE; RSW] RW offset_r_moves_ok.
    unfold offset_move_r. moves; auto; lia.
  - enters_rect w h [RNE; RE; RSE; RSW] RW offset_r_moves_ok.
    unfold offset_move_r. moves; auto; lia.
  - enters_rect w h [RNE; RE; RSE; RSW] RW offset_r_lew_moves_ok.
    unfold offset_move_r_lew. moves; auto; lia.
  - enters_axial w h (co_r b) RNE RE. apply axial_r_enters; auto.
  - enters_axial w h (co_r b) RNE RE. apply axial_r_enters; auto.
  - enters_axial w h (co_q b) QN QNE. apply axial_q_enters; auto.
  - enters_axial w h (co_q b) QN QNE. apply axial_q_enters; auto.
  - enters_axial w h (co_r b) RNE RE. apply axial_r_lew_enters; auto.
  - enters_axial w h (co_r b) RNE RE. apply axial_r_lew_enters; auto.
  - enters_axial w h (co_q b) QN QNE. apply axial_q_lew_enters; auto.
  - enters_axial w h (co_q b) QN QNE. apply axial_q_lew_enters; auto.
  - apply RQ; auto.
  - apply RQ; auto.
  - exists (w, 0), (0, 0). split; [cbn; lia|].
    split; [change (~ In (w, 0) (board w h (fun x y => (x, y)))); rewrite in_rect; lia|].
    split; [change (In (0, 0) (board w h (fun x y => (x, y)))); rewrite in_rect; lia|].
    split; [|left; reflexivity]. exists [], QN. eexists. split; [reflexivity|].
    split; [intros d' []|]. cbn [sh_move_coord hex_offset_q_lew offset_shape].
    unfold offset_move_q_lew. moves; auto; lia.
  - enters_axial w h (co_r b) RNE RE. apply axial_r_lew_enters; auto.
  - enters_axial w h (co_r b) RNE RE. apply axial_r_lew_enters; auto.
  - enters_axial w h (co_q b) QN QNE. apply axial_q_lew_enters; auto.
  - enters_axial w h (co_q b) QN QNE. apply axial_q_lew_enters; auto.
  - assert (Hd : w < 4611686018427387904 \/ h = 1).
    { match goal with F : fits _ _ |- _ => destruct F as (_ & _ & F1) end.
      rewrite !Z.max_r in F1 by lia. change (2 ^ 63) with 9223372036854775808 in F1. nia. }
    destruct Hd as [Hd| ->].
    + exists (2 * w, 0), (2 * w - 2, 0).
      split; [cbn -[Z.mul]; split; [lia|]; split; [lia|];
              change (0 mod 2) with 0; rewrite Z.mul_comm; apply Z.mod_mul; lia|].
      split; [change (~ In (2 * w, 0) (board w h double_cell)); rewrite in_double; lia|].
      split; [change (In (2 * w - 2, 0) (board w h double_cell)); rewrite in_double; lia|].
      split.
      * exists [RNE; RE; RSE; RSW], RW. eexists. split; [reflexivity|].
        split; [intros d' _; apply double_moves_ok; rewrite IMAX1_val; lia|].
        cbn [sh_move_coord double_shape]. unfold double_move_r, checked_sub.
        split_ifs; auto; lia.
      * right. cbn [sh_is_neighbor double_shape]. unfold double_is_neighbor, abs_diff. cbn [fst snd].
        split_ifs; usimp; try lia; apply f_equal; lia.
    + exists (1, 1), (0, 0). split; [cbn; lia|].
      split; [change (~ In (1, 1) (board w 1 double_cell)); rewrite in_double; lia|].
      split; [change (In (0, 0) (board w 1 double_cell)); rewrite in_double; cbn; lia|].
      split.
      * exists [RNE; RE; RSE], RSW. eexists. split; [reflexivity|].
        split; [intros d' _; apply double_moves_ok; rewrite IMAX1_val; lia|]. reflexivity.
      * right. destruct m; reflexivity.
Qed.

Lemma c56_all : forall A D N E (s : Shape Cell A D) G m (g : LatticeGraph Cell A D N E) nf ef,
  Stored s G -> geo_nodes G <> [] -> Built m s G g nf ef ->
  exists c t, geo_coord G c /\ ~ In c (geo_nodes G) /\ In t (geo_nodes G) /\
    (exists l st, Consumed (neighbors_next m g c) (neighbors g c) l st /\ In t l) /\
    is_adjacent m g c t = Ok true.
Proof.
  intros A D N E s G m g nf ef ST Hne HB. refine_store m ST.
  pose proof (built_rep RF _ _ _ HB) as [Hs _].
  assert (1 <= sh_horizontal s /\ 1 <= sh_vertical s) as [Hw Hh].
  { pose proof (nodes_length RF) as L. pose proof (bounds RF) as W.
    destruct (geo_nodes G); [congruence|]. cbn [length] in L. assert (0 < sh_horizontal s * sh_vertical s) by lia. nia. }
  destruct (c56_enters A D s G m ST Hw Hh) as (c & t & H1 & H2 & H3 & H4 & H5).
  exists c, t. split; [|split; [|split; [|split]]]; auto.
  - apply (lead_neighbors RF); auto.
  - unfold is_adjacent. rewrite Hs. destruct H5 as [H5|H5]; auto.
    rewrite H5. unfold default_is_neighbor. fold (sh_get_direction s m c t).
    destruct (lead_direction RF c t H4) as (d & Hd). rewrite Hd. reflexivity.
Qed.

(** ** Axial coordinates without loop: exactly the cells next to the coordinate *)

Lemma near_rep : forall k r q r' q', near_ok k (r, q) -> r - 1 <= r' <= r + 1 ->
  q - 1 <= q' <= q + 1 -> rep k r' q'.
Proof.
  intros [|lo hi] r q r' q' (H1 & H2 & H3); unfold rep, axial_coord in *; cbn [fst snd] in *; auto; lia.
Qed.

Lemma axial_r_near : forall A (ax : AxisGeo A AxisDR) k b w h m c d, fits w h ->
  ag_vec ax = hexr_vec -> near_ok k c ->
  axial_move_coord (axial_move_r k) false (co_r b) w h m c d
    = Ok (geo_step (axial_r_geometry ax k b w h) c d).
Proof.
  intros A ax k b w h m [r q] d F Hv Hn. pose proof (co_r_range b) as Hco.
  unfold axial_move_coord, axial_move_r. pose proof Hn as (_ & _ & B1 & B2). cbn [fst snd] in B1, B2.
  change (2 ^ 62) with 4611686018427387904 in B1, B2.
  apply fits_bounds in F. rewrite IMAX1_val in F.
  destruct d; usimp; (rewrite ha_new_ok by (eapply near_rep; eauto; lia)); cbn [bind];
    (rewrite axial_to_offset_ok by (rewrite ?IMAX1_val; unfold half_row; lia));
    cbn [bind]; unfold half_row; split_ifs; fin; try apply axial_r_inj;
    cbn -[Z.mul Z.modulo Z.add Z.sub Z.opp same_place axial_r_pos]; rewrite Hv;
    first [axial_some | axial_none].
Qed.

Lemma axial_q_near : forall A (ax : AxisGeo A AxisDQ) k b w h m c d, fits w h ->
  ag_vec ax = hexq_vec -> near_ok k c ->
  axial_move_coord (axial_move_q k) false (co_q b) w h m c d
    = Ok (geo_step (axial_q_geometry ax k b w h) c d).
Proof.
  intros A ax k b w h m [r q] d F Hv Hn. pose proof (co_q_range b) as Hco.
  unfold axial_move_coord, axial_move_q. pose proof Hn as (_ & _ & B1 & B2). cbn [fst snd] in B1, B2.
  change (2 ^ 62) with 4611686018427387904 in B1, B2.
  apply fits_bounds in F. rewrite IMAX1_val in F.
  destruct d; usimp; (rewrite ha_new_ok by (eapply near_rep; eauto; lia)); cbn [bind];
    (rewrite axial_to_offset_ok by (rewrite ?IMAX1_val; unfold half_row; lia));
    cbn [bind]; unfold half_row; split_ifs; fin; try apply axial_q_inj;
    cbn -[Z.mul Z.modulo Z.add Z.sub Z.opp same_place axial_q_pos]; rewrite Hv;
    first [axial_some | axial_none].
Qed.

Section Off.
  Context {A D N E : Type} {m : mode} {s : Shape Cell A D} {G : Geometry A D}
    {cell : Z -> Z -> Cell} (RF : Refines m s G cell).
  Notation ax := (sh_axis s).
  Notation graph := (LatticeGraph Cell A D N E).
  Let AX : AxisOK m ax (geo_ax G) := rf_axis _ _ _ _ RF.

  (** If moves from [c] answer [f], so does [neighbors]. *)
  Lemma off_neighbors : forall (g : graph) c (f : D -> option Cell), g_s g = s ->
    (forall d, sh_move_coord s m c d = Ok (f d)) ->
    Drains (neighbors_next m g c) (neighbors g c)
      (flat_map (fun d => match f d with Some t => [t] | None => [] end) (ag_dirs (geo_ax G))).
  Proof using RF AX.
    intros g c f Hs Hf.
    apply (@IterInv_drains _ _ (neighbors_next m g c) (fun st l => (st <= ax_UNDIRECTED_COUNT ax)%nat /\
      l = flat_map (fun d => match f d with Some t => [t] | None => [] end)
            (skipn st (ag_dirs (geo_ax G))))); [|split; [apply Nat.le_0_l|reflexivity]].
    assert (HL : forall rounds st l, rounds = (ax_UNDIRECTED_COUNT ax - st)%nat ->
      (st <= ax_UNDIRECTED_COUNT ax)%nat /\
      l = flat_map (fun d => match f d with Some t => [t] | None => [] end)
            (skipn st (ag_dirs (geo_ax G))) ->
      match l with
      | [] => neighbors_loop m s c rounds st = Ok (None, ax_UNDIRECTED_COUNT ax)
      | x :: l' => exists st', neighbors_loop m s c rounds st = Ok (Some x, st') /\
          (st' <= ax_UNDIRECTED_COUNT ax)%nat /\
          l' = flat_map (fun d => match f d with Some t => [t] | None => [] end)
                 (skipn st' (ag_dirs (geo_ax G)))
      end).
    { induction rounds as [|r IH]; intros st l Hr [Hst Hl].
      - rewrite skipn_short in Hl by (rewrite <- (ao_ucount _ _ _ AX); lia). cbn in Hl. subst l.
        cbn [neighbors_loop]. do 2 f_equal. lia.
      - destruct (nth_error (ag_dirs (geo_ax G)) st) as [d|] eqn:Ed;
          [|apply nth_error_None in Ed; rewrite <- (ao_ucount _ _ _ AX) in Ed; lia].
        rewrite (skipn_nth _ _ _ _ Ed) in Hl. cbn [flat_map] in Hl.
        cbn [neighbors_loop]. rewrite (ao_dir_from_index_unchecked _ _ _ AX _ _ Ed). cbn [bind].
        rewrite Hf. cbn [bind].
        destruct (f d) as [t|]; cbn [app] in Hl.
        + subst l. exists (S st). split; auto. split; [lia|reflexivity].
        + apply (IH (S st) l); [lia|]. split; [lia|auto]. }
    intros st l HP. pose proof (HL _ st l eq_refl HP) as H.
    unfold neighbors_next. rewrite Hs. destruct l as [|x l]; auto.
    exists (ax_UNDIRECTED_COUNT ax). split; auto. rewrite Nat.sub_diag. reflexivity.
  Qed.
End Off.

Lemma flat_map_ext' : forall X Y (f g : X -> list Y) l, (forall x, f x = g x) ->
  flat_map f l = flat_map g l.
Proof. intros X Y f g l H. induction l; cbn [flat_map]; congruence. Qed.

(** Square and diagonal lattices. *)
Lemma c56_square : forall A D N E (s : Shape Cell A D) G w h m (g : LatticeGraph Cell A D N E) nf ef
  c, SquareKind s G w h -> Built m s G g nf ef ->
  0 <= fst c < 2 ^ 64 - 1 -> 0 <= snd c < 2 ^ 64 - 1 ->
  Drains (neighbors_next m g c) (neighbors g c)
    (flat_map (fun d => one_sided_step w h c (ag_vec (geo_ax G) d)) (ag_dirs (geo_ax G))).
Proof.
  intros A D N E s G w h m g nf ef [x y] SK HB Hx Hy. cbn [fst snd] in Hx, Hy.
  change (2 ^ 64 - 1) with 18446744073709551615 in Hx, Hy.
  assert (SUP : Supported s G) by (destruct SK; constructor; auto).
  refine_shape m SUP. pose proof (built_rep RF _ _ _ HB) as [Hs _].
  set (f := fun d => match one_sided_step w h (x, y) (ag_vec (geo_ax G) d) with
                     | t :: _ => Some t | [] => None end).
  assert (Hf : forall d, sh_move_coord s m (x, y) d = Ok (f d)).
  { intros d. subst f. cbv beta. unfold one_sided_step, vadd. cbn [fst snd].
    destruct SK; destruct d;
      cbn [sh_move_coord square_shape square_dir_shape diagonal_shape diagonal_dir_shape];
      cbn -[Z.add Z.sub Z.leb Z.ltb Z.eqb square_move_coord diagonal_move_coord];
      unfold square_move_coord, diagonal_move_coord; moves;
      try reflexivity; try lia; apply f_equal; apply f_equal; apply pair_eq; lia. }
  eapply eq_ind with (P := fun l => Drains _ _ l); [exact (off_neighbors RF g (x, y) f Hs Hf)|].
  apply flat_map_ext'. intros d. subst f. cbv beta. unfold one_sided_step.
  destruct (_ && _); reflexivity.
Qed.

(** Axial coordinates. *)
Lemma c56_axial : forall A D N E k (s : Shape Cell A D) G m (g : LatticeGraph Cell A D N E) nf ef
  c, AxialPlain k s G -> Built m s G g nf ef -> near_ok k c ->
  Drains (neighbors_next m g c) (neighbors g c) (spec_neighbors G c) /\
  (forall t, In t (spec_neighbors G c) -> In t (geo_nodes G)) /\
  (forall t, exists r, is_adjacent m g c t = Ok r /\ (r = true <-> In t (spec_neighbors G c))).
Proof.
  intros A D N E k s G m g nf ef c AP HB Hn.
  assert (SUP : Supported s G) by (destruct AP; constructor; auto).
  refine_shape m SUP. pose proof (built_rep RF _ _ _ HB) as [Hs _].
  assert (Hf : forall d, sh_move_coord s m c d = Ok (geo_step G c d)).
  { intros d. destruct AP as [b|b|b|b].
    - cbn [hex_axial_r axial_shape sh_move_coord].
      replace (r_is_flat_top b) with false by (destruct b; reflexivity).
      replace (convert_offset (r_is_even b)) with (co_r b) by (destruct b; reflexivity).
      apply axial_r_near; auto.
    - cbn [hex_axial_r_dir axial_shape sh_move_coord].
      replace (r_is_flat_top b) with false by (destruct b; reflexivity).
      replace (convert_offset (r_is_even b)) with (co_r b) by (destruct b; reflexivity).
      apply axial_r_near; auto.
    - cbn [hex_axial_q axial_shape sh_move_coord].
      replace (q_is_flat_top b) with false by (destruct b; reflexivity).
      replace (convert_offset (q_is_even b)) with (co_q b) by (destruct b; reflexivity).
      apply axial_q_near; auto.
    - cbn [hex_axial_q_dir axial_shape sh_move_coord].
      replace (q_is_flat_top b) with false by (destruct b; reflexivity).
      replace (convert_offset (q_is_even b)) with (co_q b) by (destruct b; reflexivity).
      apply axial_q_near; auto. }
  split; [|split].
  - exact (off_neighbors RF g c (geo_step G c) Hs Hf).
  - intros t Ht. apply (in_spec_neighbors (st_supported _ _ _ _ SUP)) in Ht. destruct Ht as (d & Hd).
    eapply (rg_in RG); eauto.
  - intros t. destruct (is_adjacent_off RF RG g c t Hs Hf) as (r & H1 & H2). exists r.
    split; auto. rewrite (in_spec_neighbors (st_supported _ _ _ _ SUP)). auto.
Qed.
