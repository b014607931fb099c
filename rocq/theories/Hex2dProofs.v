(** * Hex2dProofs: directions of hex2d, and boards over narrow integers. *)

From Verif Require Import Machine Store Axes Shapes Lattice Spec Spec3 Basics AxisProofs GeoProofs
  ShapeProofs StoreProofs GraphProofs RepProofs IterProofs EdgeProofs Main1 DropProofs.
From Coq Require Import ZifyBool ZifyNat.
Ltac Zify.zify_post_hook ::= Z.div_mod_to_equations.

(** ** Directions *)

Lemma c37_inverse : forall m,
  (forall d, exists d', dr_of_hex2d m d = Ok d' /\ hex2d_of_dr m d' = Ok d) /\
  (forall d, exists d', hex2d_of_dr m d = Ok d' /\ dr_of_hex2d m d' = Ok d) /\
  (forall d, exists d', dq_of_hex2d m d = Ok d' /\ hex2d_of_dq d' = d) /\
  (forall d, dq_of_hex2d m (hex2d_of_dq d) = Ok d).
Proof. intros []; repeat split; intros []; try reflexivity; eexists; split; reflexivity. Qed.

Lemma isize_add_in : forall m x y, - IMAX1 <= x + y < IMAX1 -> isize_add m x y = Ok (x + y).
Proof.
  intros m x y H. unfold isize_add, wrap_isize. destruct (_ && _) eqn:Eb; [reflexivity|]. exfalso. lia.
Qed.
Lemma isize_sub_in : forall m x y, - IMAX1 <= x - y < IMAX1 -> isize_sub m x y = Ok (x - y).
Proof.
  intros m x y H. unfold isize_sub, wrap_isize. destruct (_ && _) eqn:Eb; [reflexivity|]. exfalso. lia.
Qed.

Lemma pair_eq : forall a b c d : Z, a = c -> b = d -> (a, b) = (c, d).
Proof. intros. subst. reflexivity. Qed.

Lemma c37_dq : forall m b w h lo hi c d, - 2 ^ 63 <= lo -> hi < 2 ^ 63 ->
  axial_coord (Hex2d lo hi) c -> axial_coord (Hex2d lo hi) (vadd c (hex2d_vec d)) ->
  exists d', dq_of_hex2d m d = Ok d' /\
    sh_move_coord_unchecked (hex_axial_q (Hex2d lo hi) b w h) m c d' = Ok (vadd c (hex2d_vec d)).
Proof.
  intros m b w h lo hi [r q] d Hlo Hhi Hc Ht. cbn [axial_coord fst snd] in Hc.
  assert (HI : forall x, lo <= x <= hi -> - IMAX1 <= x < IMAX1) by (intros; rewrite IMAX1_val; lia).
  destruct d; (eexists; split; [destruct m; reflexivity|]);
    cbn [axial_coord vadd hex2d_vec fst snd] in *;
    unfold hex_axial_q, axial_shape, axial_move_q; cbn [sh_move_coord_unchecked];
    rewrite ?isize_add_in, ?isize_sub_in by (apply HI; lia); cbn [bind];
    rewrite ?isize_add_in, ?isize_sub_in by (apply HI; lia); cbn [bind];
    unfold ha_new;
    match goal with |- (if ?b then _ else _) = _ => replace b with true by lia end;
    apply f_equal, pair_eq; cbn [fst snd]; lia.
Qed.

Lemma c37_dr : forall m b w h lo hi c d, - 2 ^ 63 <= lo -> hi < 2 ^ 63 ->
  axial_coord (Hex2d lo hi) c -> axial_coord (Hex2d lo hi) (vadd c (hex2d_vec (clockwise d))) ->
  exists d', dr_of_hex2d m d = Ok d' /\
    sh_move_coord_unchecked (hex_axial_r (Hex2d lo hi) b w h) m c d'
      = Ok (vadd c (hex2d_vec (clockwise d))) /\
    vadd c (hex2d_vec (clockwise d)) <> vadd c (hex2d_vec d).
Proof.
  intros m b w h lo hi [r q] d Hlo Hhi Hc Ht. cbn [axial_coord fst snd] in Hc.
  assert (HI : forall x, lo <= x <= hi -> - IMAX1 <= x < IMAX1) by (intros; rewrite IMAX1_val; lia).
  destruct d; (eexists; split; [destruct m; reflexivity|]);
    cbn [axial_coord vadd hex2d_vec clockwise fst snd] in *;
    (split; [|unfold vadd; cbn [fst snd]; intros Heq; apply pair_inv in Heq; lia]);
    unfold hex_axial_r, axial_shape, axial_move_r; cbn [sh_move_coord_unchecked];
    rewrite ?isize_add_in, ?isize_sub_in by (apply HI; lia); cbn [bind];
    rewrite ?isize_add_in, ?isize_sub_in by (apply HI; lia); cbn [bind];
    unfold ha_new;
    match goal with |- (if ?b then _ else _) = _ => replace b with true by lia end;
    apply f_equal, pair_eq; cbn [fst snd]; lia.
Qed.

(** ** Narrow integers: boards that fit *)

Lemma narrow_fits : forall lo hi co w h, signed_type lo hi -> 0 <= co <= 1 -> 0 <= w <= hi -> 0 <= h <= hi ->
  axial_fits (Hex2d lo hi) co w h.
Proof.
  intros lo hi co w h (n & Hn & -> & ->) Hco Hw Hh. unfold axial_fits.
  assert (H0 : 2 ^ n <= 2 ^ 63) by (apply Z.pow_le_mono_r; lia).
  assert (H1 : 1 <= 2 ^ n) by (change 1 with (2 ^ 0); apply Z.pow_le_mono_r; lia).
  lia.
Qed.

Lemma narrow_co_r : forall b, 0 <= co_r b <= 1. Proof. intros []; cbn; lia. Qed.
Lemma narrow_co_q : forall b, 0 <= co_q b <= 1. Proof. intros []; cbn; lia. Qed.

Definition refusal (m : mode) : fault := match m with Debug => FPanic | Release => FUB end.

(** The narrow computation does the same or stops with the fault. *)
Definition narrowed {X} (m : mode) (o o' : outcome X) : Prop := o = o' \/ o = Fail (refusal m).

Lemma narrowed_refl : forall X m (o : outcome X), narrowed m o o.
Proof. left. reflexivity. Qed.

Lemma narrowed_bind : forall X Y m (o o' : outcome X) (k k' : X -> outcome Y),
  narrowed m o o' -> (forall x, narrowed m (k x) (k' x)) -> narrowed m (bind o k) (bind o' k').
Proof.
  intros X Y m o o' k k' [-> | ->] Hk; [|right; reflexivity].
  destruct o' as [x|f]; cbn [bind]; [apply Hk|left; reflexivity].
Qed.

Lemma narrowed_new : forall m lo hi r q, narrowed m (ha_new (Hex2d lo hi) m r q) (ha_new HAxial m r q).
Proof.
  intros m lo hi r q. unfold ha_new. destruct (_ && _); [left; reflexivity|].
  right. destruct m; reflexivity.
Qed.

Ltac narrowed_binds :=
  repeat first [apply narrowed_new | apply narrowed_refl | apply narrowed_bind; [|intros ?]].

Lemma narrowed_move_r : forall m lo hi c d,
  narrowed m (axial_move_r (Hex2d lo hi) m c d) (axial_move_r HAxial m c d).
Proof. intros m lo hi [r q] []; unfold axial_move_r; narrowed_binds. Qed.
Lemma narrowed_move_q : forall m lo hi c d,
  narrowed m (axial_move_q (Hex2d lo hi) m c d) (axial_move_q HAxial m c d).
Proof. intros m lo hi [r q] []; unfold axial_move_q; narrowed_binds. Qed.

Lemma narrowed_coordinate : forall m lo hi flat co o,
  narrowed m (axial_offset_to_coordinate (Hex2d lo hi) flat co m o)
    (axial_offset_to_coordinate HAxial flat co m o).
Proof. intros m lo hi [] co o; unfold axial_offset_to_coordinate; narrowed_binds. Qed.

Lemma narrow_ops : forall lo hi w h A D (s s' : Shape Cell A D) m, Narrow lo hi w h s s' ->
  sh_axis s = sh_axis s' /\ sh_horizontal s = w /\ sh_horizontal s' = w /\
  sh_vertical s = h /\ sh_vertical s' = h /\
  (forall o, narrowed m (sh_offset_to_coordinate s m o) (sh_offset_to_coordinate s' m o)) /\
  (forall c d, narrowed m (sh_move_coord s m c d) (sh_move_coord s' m c d)).
Proof.
  intros lo hi w h A D s s' m H. destruct H; (split; [reflexivity|]); do 4 (split; [reflexivity|]);
    (split; [intros o; apply narrowed_coordinate|]); intros c d;
    cbn [sh_move_coord hex_axial_r hex_axial_r_dir hex_axial_r_lew hex_axial_r_dir_lew
         hex_axial_q hex_axial_q_dir hex_axial_q_lew hex_axial_q_dir_lew axial_shape axial_lew_shape];
    unfold axial_move_coord, axial_move_coord_lew;
    (apply narrowed_bind; [first [apply narrowed_move_r|apply narrowed_move_q]|intros c']);
    try (narrowed_binds; fail);
    destruct (_ <=? _); narrowed_binds.
Qed.

(** Two refinements of lattices with the same cells. *)
Lemma same_board : forall A D N E m (s s' : Shape Cell A D) G G' cell cell',
  Refines m s G cell -> Refines m s' G' cell' -> 
  sh_horizontal s = sh_horizontal s' -> sh_vertical s = sh_vertical s' ->
  geo_ax G = geo_ax G' -> geo_nodes G = geo_nodes G' ->
  (forall c d, narrowed m (sh_move_coord s m c d) (sh_move_coord s' m c d)) ->
  (forall x y, 0 <= x < sh_horizontal s -> 0 <= y < sh_vertical s -> exists c,
     sh_offset_to_coordinate s m (x, y) = Ok c /\ sh_offset_to_coordinate s' m (x, y) = Ok c /\
     sh_to_offset s m c = Ok (Some (x, y)) /\ sh_to_offset s' m c = Ok (Some (x, y)) /\
     forall d, exists t, sh_move_coord s m c d = Ok t /\ sh_move_coord s' m c d = Ok t) /\
  (forall (nf : Cell -> N) (ef : Cell -> A -> E), exists g g',
     new_with s (fun st c => (nf c, st)) (fun st c a => (ef c a, st)) m tt = Ok (g, tt) /\
     new_with s' (fun st c => (nf c, st)) (fun st c a => (ef c a, st)) m tt = Ok (g', tt) /\
     g_nodes g = g_nodes g' /\ g_edges g = g_edges g').
Proof.
  intros A D N E m s s' G G' cell cell' RF RF' Hw Hh Hg Hn HM.
  assert (Hst : forall c d, In c (geo_nodes G) ->
    sh_move_coord s' m c d = Ok (geo_step G c d) /\ geo_step G c d = geo_step G' c d).
  { intros c d Hc. pose proof (rf_move _ _ _ _ RF c d Hc) as H1. rewrite Hn in Hc.
    pose proof (rf_move _ _ _ _ RF' c d Hc) as H2. destruct (HM c d) as [H|H]; [|congruence].
    split; congruence. }
  split.
  - intros x y Hx Hy. exists (cell x y).
    assert (Hc : cell x y = cell' x y).
    { pose proof (rf_nodes _ _ _ _ RF) as H1. pose proof (rf_nodes _ _ _ _ RF') as H2.
      pose proof (board_nth _ _ cell x y Hx Hy) as H3. rewrite <- H1, Hn, H2, <- Hw, <- Hh in H3.
      rewrite board_nth in H3 by auto. congruence. }
    split; [apply (rf_coord _ _ _ _ RF); auto|]. split; [rewrite Hc; apply (rf_coord _ _ _ _ RF'); lia|].
    split; [apply (rf_offset _ _ _ _ RF); auto|]. split; [rewrite Hc; apply (rf_offset _ _ _ _ RF'); lia|].
    intros d. assert (Hin : In (cell x y) (geo_nodes G)) by (apply (cell_in RF); auto).
    exists (geo_step G (cell x y) d). split; [apply (rf_move _ _ _ _ RF); auto|]. apply Hst. auto.
  - intros nf ef. destruct (new_with_rep RF nf ef) as (g & H1 & R1). destruct (new_with_rep RF' nf ef) as (g' & H2 & R2).
    exists g, g'. split; auto. split; auto.
    rewrite (rep_memory RF _ _ _ R1), (rep_memory RF' _ _ _ R2). unfold memory. cbn [g_nodes g_edges].
    rewrite Hw, Hh, Hn. split; [reflexivity|]. rewrite <- Hg. apply map_ext. intros a. unfold edge_array.
    rewrite Hw, Hh, Hn. f_equal. apply map_ext_in. intros c Hc. unfold opt_edge.
    rewrite <- Hg, (proj2 (Hst _ _ ltac:(rewrite Hn; exact Hc))). reflexivity.
Qed.

Lemma c38_fits : forall lo hi w h A D (s s' : Shape Cell A D) N E m, Narrow lo hi w h s s' ->
  signed_type lo hi -> fits w h -> w <= hi -> h <= hi ->
  (forall x y, 0 <= x < w -> 0 <= y < h -> exists c,
     sh_offset_to_coordinate s m (x, y) = Ok c /\ sh_offset_to_coordinate s' m (x, y) = Ok c /\
     sh_to_offset s m c = Ok (Some (x, y)) /\ sh_to_offset s' m c = Ok (Some (x, y)) /\
     forall d, exists t, sh_move_coord s m c d = Ok t /\ sh_move_coord s' m c d = Ok t) /\
  (forall (nf : Cell -> N) (ef : Cell -> A -> E), exists g g',
     new_with s (fun st c => (nf c, st)) (fun st c a => (ef c a, st)) m tt = Ok (g, tt) /\
     new_with s' (fun st c => (nf c, st)) (fun st c a => (ef c a, st)) m tt = Ok (g', tt) /\
     g_nodes g = g_nodes g' /\ g_edges g = g_edges g').
Proof.
  intros lo hi w h A D s s' N E m H Hs F Hw Hh.
  assert (Hst : exists G G', Stored s G /\ Stored s' G' /\ geo_ax G = geo_ax G' /\
    geo_nodes G = geo_nodes G').
  { pose proof (proj1 F). pose proof (proj1 (proj2 F)).
    assert (HR : forall b, axial_fits (Hex2d lo hi) (co_r b) w h)
      by (intros b; apply narrow_fits; auto using narrow_co_r).
    assert (HQ : forall b, axial_fits (Hex2d lo hi) (co_q b) w h)
      by (intros b; apply narrow_fits; auto using narrow_co_q).
    destruct H; do 2 eexists;
      (split; [first [apply st_supported; econstructor; solve [eauto] | solve [constructor; auto]]|];
       split; [first [apply st_supported; econstructor; solve [eauto|exact I] | solve [constructor; auto; exact I]]|];
       split; reflexivity). }
  destruct Hst as (G & G' & S1 & S2 & Hg & Hn). destruct (narrow_ops _ _ _ _ _ _ _ _ m H) as (_ & E1 & E2 & E3 & E4 & _ & HM).
  destruct (stored_refines _ _ _ _ m S1) as (cell & RF). destruct (stored_refines _ _ _ _ m S2) as (cell' & RF').
  rewrite <- E1, <- E3.
  eapply same_board; try eassumption; congruence.
Qed.

(** ** Narrow integers: boards that do not fit *)

Section Refusal.
  Context {A D N E St : Type} {m : mode} (s s' : Shape Cell A D)
    (Hax : sh_axis s = sh_axis s') (Hw : sh_horizontal s = sh_horizontal s')
    (Hh : sh_vertical s = sh_vertical s')
    (HC : forall o, narrowed m (sh_offset_to_coordinate s m o) (sh_offset_to_coordinate s' m o))
    (HM : forall c d, narrowed m (sh_move_coord s m c d) (sh_move_coord s' m c d))
    (n : St -> Cell -> N * St) (e : St -> Cell -> A -> E * St).
  Notation acc := (Array2 (option N) * list (Array2 (option E)) * St)%type.

  Lemma edges_loop_narrowed : forall edges o c j st,
    narrowed m (new_edges_loop s e m o c j edges st) (new_edges_loop s' e m o c j edges st).
  Proof.
    induction edges as [|edge rest IH]; intros o c j st; cbn [new_edges_loop]; [apply narrowed_refl|].
    rewrite Hax. apply narrowed_bind; [apply narrowed_refl|intros a].
    apply narrowed_bind; [apply narrowed_refl|intros d]. apply narrowed_bind; [apply HM|intros t].
    destruct (match t with Some _ => _ | None => _ end) as [edge' st'].
    apply narrowed_bind; [apply IH|intros []]. apply narrowed_refl.
  Qed.

  Lemma step_narrowed : forall (a : acc) i,
    narrowed m (new_with_step s n e m a i) (new_with_step s' n e m a i).
  Proof.
    intros [[nodes edges] st] i. unfold new_with_step, sh_index_to_offset. rewrite Hh.
    apply narrowed_bind; [apply narrowed_refl|intros o]. apply narrowed_bind; [apply HC|intros c].
    destruct (n st c) as [nw st']. apply narrowed_bind; [apply narrowed_refl|intros nodes'].
    apply narrowed_bind; [apply edges_loop_narrowed|intros []]. apply narrowed_refl.
  Qed.

  (** The move along axis [j0] from [c] stops with the fault. *)
  Definition stuck (c : Cell) (j0 : nat) : Prop :=
    exists a d, ax_from_index_unchecked (sh_axis s) m j0 = Ok a /\ ax_foward (sh_axis s) m a = Ok d /\
      sh_move_coord s m c d = Fail (refusal m).

  Lemma edges_loop_stuck : forall edges o c j st j0 x, (j <= j0 < j + length edges)%nat ->
    stuck c j0 -> new_edges_loop s' e m o c j edges st = Ok x ->
    new_edges_loop s e m o c j edges st = Fail (refusal m).
  Proof.
    induction edges as [|edge rest IH]; intros o c j st j0 x Hj Hs Hok; cbn [length] in Hj; [lia|].
    cbn [new_edges_loop] in *. rewrite <- Hax in Hok.
    destruct (ax_from_index_unchecked (sh_axis s) m j) as [a|] eqn:Ea; [|discriminate]. cbn [bind] in *.
    destruct (ax_foward (sh_axis s) m a) as [d|] eqn:Ed; [|discriminate]. cbn [bind] in *.
    destruct (Nat.eq_dec j j0) as [->|Hne].
    - destruct Hs as (a' & d' & Ha' & Hd' & Hm). rewrite Ea in Ha'. injection Ha' as <-.
      rewrite Ed in Hd'. injection Hd' as <-. rewrite Hm. reflexivity.
    - destruct (HM c d) as [Heq|Heq]; rewrite Heq; [|reflexivity].
      destruct (sh_move_coord s' m c d) as [t|]; [|discriminate]. cbn [bind] in *.
      destruct (match t with Some _ => _ | None => _ end) as [edge' st'].
      destruct (new_edges_loop s' e m o c (S j) rest st') as [x'|] eqn:El; [|discriminate].
      rewrite (IH o c (S j) st' j0 x'); auto. lia.
  Qed.

  Lemma edges_loop_length : forall edges o c j st l st',
    new_edges_loop s' e m o c j edges st = Ok (l, st') -> length l = length edges.
  Proof.
    induction edges as [|edge rest IH]; intros o c j st l st' Hok; cbn [new_edges_loop] in Hok.
    - injection Hok as <- <-. reflexivity.
    - destruct (ax_from_index_unchecked (sh_axis s') m j) as [a|]; [|discriminate]. cbn [bind] in Hok.
      destruct (ax_foward (sh_axis s') m a) as [d|]; [|discriminate]. cbn [bind] in Hok.
      destruct (sh_move_coord s' m c d) as [t|]; [|discriminate]. cbn [bind] in Hok.
      destruct (match t with Some _ => _ | None => _ end) as [edge' st1].
      destruct (new_edges_loop s' e m o c (S j) rest st1) as [[l' st2]|] eqn:El; [|discriminate].
      cbn [bind] in Hok. injection Hok as <- <-. cbn [length]. f_equal. eapply IH; eauto.
  Qed.

  (** The cell number [i0] has no coordinate, or a move from it gets stuck. *)
  Definition stops (i0 : Z) (j0 : nat) : Prop := exists o, sh_index_to_offset s' i0 = Ok o /\
    forall c, sh_offset_to_coordinate s m o = Ok c -> stuck c j0.

  Lemma step_stops : forall (a a' : acc) i0 j0, (j0 < length (snd (fst a)))%nat -> stops i0 j0 ->
    new_with_step s' n e m a i0 = Ok a' -> new_with_step s n e m a i0 = Fail (refusal m).
  Proof.
    intros [[nodes edges] st] a' i0 j0 Hj (o & Ho & Hs) Hok. cbn [fst snd] in Hj.
    unfold new_with_step in *.
    assert (Ho' : sh_index_to_offset s i0 = Ok o) by (unfold sh_index_to_offset in *; rewrite Hh; auto).
    rewrite Ho in Hok. rewrite Ho'. cbn [bind] in *.
    destruct (HC o) as [Heq|Heq]; [|rewrite Heq; reflexivity]. rewrite Heq in *.
    destruct (sh_offset_to_coordinate s' m o) as [c|] eqn:Ec; [|discriminate]. cbn [bind] in *.
    specialize (Hs c eq_refl). destruct (n st c) as [nw st'].
    match type of Hok with bind ?o _ = _ => destruct o as [nodes'|]; [|discriminate] end. cbn [bind] in *.
    destruct (new_edges_loop s' e m o c 0 edges st') as [x|] eqn:El; [|discriminate].
    rewrite (edges_loop_stuck edges o c 0 st' j0 x); auto. lia.
  Qed.

  Lemma step_length : forall (a a' : acc) i, new_with_step s' n e m a i = Ok a' ->
    length (snd (fst a')) = length (snd (fst a)).
  Proof.
    intros [[nodes edges] st] a' i Hok. unfold new_with_step in Hok.
    destruct (sh_index_to_offset s' i) as [o|]; [|discriminate]. cbn [bind] in Hok.
    destruct (sh_offset_to_coordinate s' m o) as [c|]; [|discriminate]. cbn [bind] in Hok.
    destruct (n st c) as [nw st'].
    match type of Hok with bind ?o _ = _ => destruct o as [nodes'|]; [|discriminate] end. cbn [bind] in Hok.
    destruct (new_edges_loop s' e m o c 0 edges st') as [[l st2]|] eqn:El; [|discriminate].
    cbn [bind] in Hok. injection Hok as <-. cbn [fst snd]. eapply edges_loop_length; eauto.
  Qed.

  Lemma fold_stops : forall l (a a' : acc) i0 j0, (j0 < length (snd (fst a)))%nat -> stops i0 j0 -> In i0 l ->
    fold_outcome (new_with_step s' n e m) l a = Ok a' ->
    fold_outcome (new_with_step s n e m) l a = Fail (refusal m).
  Proof.
    induction l as [|i l IH]; intros a a' i0 j0 Hj Hs Hin Hok; [destruct Hin|].
    cbn [fold_outcome] in *. destruct (new_with_step s' n e m a i) as [a1|] eqn:E1; [|discriminate].
    cbn [bind] in Hok. destruct (Z.eq_dec i i0) as [->|Hne].
    - rewrite (step_stops _ _ _ _ Hj Hs E1). reflexivity.
    - destruct (step_narrowed a i) as [Heq|Heq]; rewrite Heq; [|reflexivity]. rewrite E1. cbn [bind].
      eapply IH; eauto.
      + rewrite (step_length _ _ _ E1). exact Hj.
      + destruct Hin as [Hin|Hin]; [contradiction|auto].
  Qed.

  Lemma new_with_stops : forall i0 j0 st x, stops i0 j0 -> (j0 < ax_COUNT (sh_axis s))%nat ->
    0 <= i0 < sh_horizontal s * sh_vertical s -> sh_horizontal s * sh_vertical s < 2 ^ 63 ->
    new_with s' n e m st = Ok x -> new_with s n e m st = Fail (refusal m).
  Proof.
    intros i0 j0 st x Hs Hj Hi Hlt Hok. unfold new_with in *.
    assert (Hu : forall k, uninit_edges (E := E) s k = uninit_edges s' k).
    { induction k as [|k IH]; cbn [uninit_edges]; [reflexivity|]. rewrite Hw, Hh, IH. reflexivity. }
    assert (Hl : forall k l, uninit_edges (E := E) s' k = Ok l -> length l = k).
    { induction k as [|k IH]; intros l Hk; cbn [uninit_edges] in Hk; [injection Hk as <-; reflexivity|].
      destruct (array_uninit _ _); [|discriminate]. cbn [bind] in Hk.
      destruct (uninit_edges s' k) eqn:Ek; [|discriminate]. cbn [bind] in Hk. injection Hk as <-. cbn [length].
      f_equal. apply IH. reflexivity. }
    unfold new_uninit in *. rewrite Hu, Hw, Hh, Hax.
    destruct (array_uninit (sh_horizontal s') (sh_vertical s')) as [nodes|]; [|discriminate]. cbn [bind] in *.
    destruct (uninit_edges s' (ax_COUNT (sh_axis s'))) as [edges|] eqn:Ee; [|discriminate]. cbn [bind] in *.
    destruct (debug_assert m _) as [u|]; [|discriminate]. cbn [bind] in *.
    assert (Hc : sh_node_count s m = Ok (sh_horizontal s * sh_vertical s)).
    { unfold sh_node_count. apply usize_mul_ok. rewrite USIZE_val. lia. }
    assert (Hc' : sh_node_count s' m = Ok (sh_horizontal s * sh_vertical s)).
    { rewrite Hw, Hh in *. unfold sh_node_count. apply usize_mul_ok. rewrite USIZE_val. lia. }
    rewrite Hc. rewrite Hc' in Hok. cbn [bind g_nodes g_edges] in *.
    destruct (fold_outcome (new_with_step s' n e m) _ _) as [a'|] eqn:Ef; [|discriminate].
    rewrite (fold_stops _ _ a' i0 j0); auto.
    - cbn [fst snd]. rewrite (Hl _ _ Ee), <- Hax. exact Hj.
    - apply in_zrange. lia.
  Qed.
End Refusal.

(** Steps to a coordinate above the largest integer. *)
Lemma ha_new_above : forall m lo hi r q, hi < r \/ hi < q -> ha_new (Hex2d lo hi) m r q = Fail (refusal m).
Proof.
  intros m lo hi r q H. unfold ha_new. destruct (_ && _) eqn:Eb; [exfalso; lia|]. destruct m; reflexivity.
Qed.

Lemma stuck_r : forall lo hi m r q, - 2 ^ 63 <= r < 2 ^ 63 - 1 -> - 2 ^ 63 <= q < 2 ^ 63 - 1 ->
  (hi <= r -> axial_move_r (Hex2d lo hi) m (r, q) RE = Fail (refusal m)) /\
  (hi <= q -> axial_move_r (Hex2d lo hi) m (r, q) RNE = Fail (refusal m)).
Proof.
  intros lo hi m r q Hr Hq. split; intros H; unfold axial_move_r;
    rewrite isize_add_ok by (rewrite IMAX1_val; lia); cbn [bind]; apply ha_new_above; lia.
Qed.
Lemma stuck_q : forall lo hi m r q, - 2 ^ 63 <= r < 2 ^ 63 - 1 -> - 2 ^ 63 <= q < 2 ^ 63 - 1 ->
  (hi <= r -> axial_move_q (Hex2d lo hi) m (r, q) QNE = Fail (refusal m)) /\
  (hi <= q -> axial_move_q (Hex2d lo hi) m (r, q) QN = Fail (refusal m)).
Proof.
  intros lo hi m r q Hr Hq. split; intros H; unfold axial_move_q;
    rewrite isize_add_ok by (rewrite IMAX1_val; lia); cbn [bind]; apply ha_new_above; lia.
Qed.

(** The coordinate of a cell, when there is one. *)
Lemma narrow_coordinate : forall lo hi w h A D (s s' : Shape Cell A D) m x y c, Narrow lo hi w h s s' ->
  fits w h -> 0 <= x < w -> 0 <= y < h -> sh_offset_to_coordinate s m (x, y) = Ok c ->
  exists co, 0 <= co <= 1 /\ c = (x - (y + co) / 2, y).
Proof.
  intros lo hi w h A D s s' m x y c H F Hx Hy Hc.
  destruct (narrow_ops _ _ _ _ _ _ _ _ m H) as (_ & _ & _ & _ & _ & HC & _).
  specialize (HC (x, y)). rewrite Hc in HC. destruct HC as [HC|HC]; [|discriminate].
  pose proof (fits_bounds _ _ F) as B.
  destruct H; [exists (co_r b)|exists (co_r b)|exists (co_r b)|exists (co_r b)
    |exists (co_q b)|exists (co_q b)|exists (co_q b)|exists (co_q b)];
    (split; [solve [apply co_r_range|apply co_q_range]|]);
    revert HC; unfold_axial; cbn [sh_offset_to_coordinate];
    (erewrite axial_coordinate_ok with (w := w) (h := h);
      [intros HC; injection HC as ->; reflexivity|..];
      try solve [apply co_r_range|apply co_q_range|exact I|assumption|lia]).
Qed.

Ltac stuck_move :=
  cbn [sh_move_coord hex_axial_r hex_axial_r_dir hex_axial_r_lew hex_axial_r_dir_lew
       hex_axial_q hex_axial_q_dir hex_axial_q_lew hex_axial_q_dir_lew axial_shape axial_lew_shape];
  unfold axial_move_coord, axial_move_coord_lew;
  match goal with H : ?o = Fail _ |- bind ?o _ = _ => rewrite H; reflexivity end.

Lemma c38_refused : forall lo hi w h A D (s s' : Shape Cell A D) N E St m
  (n : St -> Cell -> N * St) (e : St -> Cell -> A -> E * St) st, Narrow lo hi w h s s' ->
  signed_type lo hi -> fits w h -> 1 <= w -> 1 <= h -> hi < w \/ hi < h ->
  new_with s n e m st = Fail (refusal m).
Proof.
  intros lo hi w h A D s s' N E St m n e st H Hs F Hw Hh Hbig.
  pose proof (narrow_ops _ _ _ _ _ _ _ _ m H) as (Hax & E1 & E2 & E3 & E4 & HC & HM).
  assert (Hok : exists x, new_with s' n e m st = Ok x).
  { assert (Hst : exists G, Stored s' G).
    { destruct H; eexists; first [apply st_supported; econstructor; solve [eauto|exact I]
                                 | solve [constructor; auto; exact I]]. }
    destruct Hst as (G & S2). destruct (stored_refines _ _ _ _ m S2) as (cell' & RF').
    destruct (new_with_calls RF' _ n e st) as (g & nf & ef & Hg & _). eexists. exact Hg. }
  destruct Hok as (x & Hok).
  assert (Hwh : w * h < 2 ^ 63) by (unfold fits in F; nia).
  pose proof (fits_bounds _ _ F) as B. rewrite IMAX1_val in B.
  assert (Hstop : forall x0 y0 j0, 0 <= x0 < w -> 0 <= y0 < h -> (j0 < ax_COUNT (sh_axis s))%nat ->
    (forall co, 0 <= co <= 1 -> stuck (m := m) s (x0 - (y0 + co) / 2, y0) j0) ->
    new_with s n e m st = Fail (refusal m)).
  { intros x0 y0 j0 Hx Hy Hj Hst.
    eapply (new_with_stops s s') with (i0 := x0 * h + y0) (j0 := j0); try eassumption; try congruence;
      rewrite ?E1, ?E3; try nia.
    exists (x0, y0). split.
    - unfold sh_index_to_offset. rewrite E4. unfold usize_rem, usize_div.
      replace (h =? 0) with false by lia. cbn [bind]. rewrite (Z.mul_comm x0 h). apply f_equal, pair_eq; cbn [fst snd].
      + rewrite Z.mul_comm, Z.div_add_l by lia. rewrite Z.div_small by lia. lia.
      + rewrite Z.add_comm, Z.mul_comm, Z.mod_add by lia. apply Z.mod_small. lia.
    - intros c Hc. destruct (narrow_coordinate _ _ _ _ _ _ _ _ m _ _ _ H F Hx Hy Hc) as (co & Hco & ->).
      apply Hst. exact Hco. }
  destruct Hbig as [Hb|Hb].
  - apply (Hstop (w - 1) 0 1%nat); [lia|lia|destruct H; cbn; lia|].
    intros co Hco. replace (w - 1 - (0 + co) / 2) with (w - 1) by lia.
    destruct (stuck_r lo hi m (w - 1) 0 ltac:(lia) ltac:(lia)) as [HR _]. specialize (HR ltac:(lia)).
    destruct (stuck_q lo hi m (w - 1) 0 ltac:(lia) ltac:(lia)) as [HQ _]. specialize (HQ ltac:(lia)).
    destruct H; do 2 eexists; (split; [reflexivity|split; [reflexivity|]]); stuck_move.
  - apply (Hstop 0 (h - 1) 0%nat); [lia|lia|destruct H; cbn; lia|].
    intros co Hco.
    destruct (stuck_r lo hi m (0 - (h - 1 + co) / 2) (h - 1) ltac:(lia) ltac:(lia)) as [_ HR]. specialize (HR ltac:(lia)).
    destruct (stuck_q lo hi m (0 - (h - 1 + co) / 2) (h - 1) ltac:(lia) ltac:(lia)) as [_ HQ]. specialize (HQ ltac:(lia)).
    destruct H; do 2 eexists; (split; [reflexivity|split; [reflexivity|]]); stuck_move.
Qed.
