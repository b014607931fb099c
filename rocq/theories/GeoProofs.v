(** * GeoProofs: facts about the geometric specification. *)

From Verif Require Import Machine Store Axes Shapes Spec Basics AxisProofs.
From Coq Require Import ZifyBool ZifyNat.
Ltac Zify.zify_post_hook ::= Z.div_mod_to_equations.

(** ** Boards *)

Lemma in_board : forall w h cell c,
  In c (board w h cell) <-> exists x y, 0 <= x < w /\ 0 <= y < h /\ c = cell x y.
Proof.
  intros w h cell c. unfold board. rewrite in_flat_map. split.
  - intros (x & Hx & H). rewrite in_map_iff in H. destruct H as (y & <- & Hy).
    rewrite in_zrange in *. exists x, y; auto.
  - intros (x & y & Hx & Hy & ->). exists x. rewrite in_map_iff, in_zrange.
    split; auto. exists y. rewrite in_zrange; auto.
Qed.

Lemma flat_map_const_nth : forall A B (f : A -> list B) n l i j a b,
  (forall a, In a l -> length (f a) = n) ->
  nth_error l i = Some a -> nth_error (f a) j = Some b -> (j < n)%nat ->
  nth_error (flat_map f l) (i * n + j) = Some b.
Proof.
  induction l; intros i j a' b Hlen Hi Hj Hn.
  - destruct i; discriminate.
  - destruct i; simpl in *.
    + injection Hi as ->. rewrite nth_error_app1; auto. rewrite Hlen by auto. auto.
    + rewrite nth_error_app2 by (rewrite Hlen by auto; lia).
      rewrite Hlen by auto. replace (n + i * n + j - n)%nat with (i * n + j)%nat by lia.
      eapply IHl; eauto.
Qed.

Lemma board_length : forall w h cell, 0 <= w -> 0 <= h ->
  length (board w h cell) = Z.to_nat (w * h).
Proof.
  intros w h cell Hw Hh. unfold board.
  assert (H : forall l, length (flat_map (fun x => map (fun y => cell x y) (zrange h)) l)
            = (length l * Z.to_nat h)%nat).
  { induction l; simpl; auto. rewrite app_length, map_length, zrange_length, IHl. lia. }
  rewrite H, zrange_length. nia.
Qed.

Lemma board_nth : forall w h cell x y, 0 <= x < w -> 0 <= y < h ->
  nth_error (board w h cell) (Z.to_nat (x * h + y)) = Some (cell x y).
Proof.
  intros w h cell x y Hx Hy. unfold board.
  replace (Z.to_nat (x * h + y)) with (Z.to_nat x * Z.to_nat h + Z.to_nat y)%nat by nia.
  apply flat_map_const_nth with (a := x).
  - intros. rewrite map_length, zrange_length. reflexivity.
  - rewrite zrange_nth by lia. f_equal. lia.
  - rewrite nth_error_map, zrange_nth by lia. simpl. do 2 f_equal. lia.
  - lia.
Qed.

(** ** Places *)

Lemma same_place_iff : forall p a b, same_place p a b = true <->
  (fst p = 0 /\ a = b) \/
  (fst p <> 0 /\ exists k, fst a = fst b + k * fst p /\ snd a = snd b + k * snd p).
Proof.
  intros [px py] [a1 a2] [b1 b2]. unfold same_place. simpl.
  destruct (px =? 0) eqn:E.
  - rewrite andb_true_iff. split.
    + intros [H1 H2]. left. split; [lia|]. f_equal; lia.
    + intros [[_ [= -> ->]] | [H _]]; lia.
  - rewrite andb_true_iff, !Z.eqb_eq. split.
    + intros [H1 H2]. right. split; [lia|]. exists ((a1 - b1) / px). split.
      * pose proof (Z.div_mod (a1 - b1) px ltac:(lia)). rewrite H1 in H. lia.
      * lia.
    + intros [[H _] | (_ & k & H1 & H2)]; [lia|].
      assert (Hd : a1 - b1 = k * px) by lia. rewrite Hd.
      rewrite Z.mod_mul, Z.div_mul by lia. lia.
Qed.

Lemma same_place_refl : forall p a, same_place p a a = true.
Proof.
  intros p a. rewrite same_place_iff. destruct (Z.eq_dec (fst p) 0); auto.
  right. split; auto. exists 0. lia.
Qed.

Lemma same_place_sym : forall p a b, same_place p a b = true -> same_place p b a = true.
Proof.
  intros p a b. rewrite !same_place_iff. intros [[H ->] | (H & k & H1 & H2)]; auto.
  right. split; auto. exists (- k). nia.
Qed.

Lemma same_place_trans : forall p a b c,
  same_place p a b = true -> same_place p b c = true -> same_place p a c = true.
Proof.
  intros p a b c. rewrite !same_place_iff.
  intros [[H ->] | (H & k & H1 & H2)] [[H' E] | (H' & k' & H1' & H2')]; try lia.
  - left. split; congruence.
  - right. split; auto. exists (k + k'). nia.
Qed.

Lemma same_place_shift : forall p a b v,
  same_place p a b = true -> same_place p (vadd a v) (vadd b v) = true.
Proof.
  intros p a b v. rewrite !same_place_iff. unfold vadd; simpl.
  intros [[H ->] | (H & k & H1 & H2)]; auto.
  right. split; auto. exists k. lia.
Qed.

Lemma vadd_neg : forall a v, vadd (vadd a v) (vneg v) = a.
Proof. intros [] []; unfold vadd, vneg; simpl. f_equal; lia. Qed.

(** ** Steps *)

(** Steps are by position, and distinct cells are distinct places. *)
Definition placed {A D} (G : Geometry A D) (pos : Cell -> Vec) (period : Vec) : Prop :=
  geo_step G = place_step (geo_ax G) (geo_nodes G) pos period /\
  forall c c', In c (geo_nodes G) -> In c' (geo_nodes G) ->
  same_place period (pos c) (pos c') = true -> c = c'.

Section Step.
  Context {A D : Type} {G : Geometry A D} {pos : Cell -> Vec} {period : Vec}
    (PL : placed G pos period).

  Lemma placed_in : forall c d c', geo_step G c d = Some c' -> In c' (geo_nodes G).
  Proof using PL. intros c d c' H. rewrite (proj1 PL) in H. apply find_some in H. tauto. Qed.

  Lemma geo_step_place : forall c d c', geo_step G c d = Some c' ->
    same_place period (vadd (pos c) (ag_vec (geo_ax G) d)) (pos c') = true.
  Proof using PL. intros c d c' H. rewrite (proj1 PL) in H. apply find_some in H. tauto. Qed.

  Lemma geo_step_some : forall c d c', In c' (geo_nodes G) ->
    same_place period (vadd (pos c) (ag_vec (geo_ax G) d)) (pos c') = true ->
    geo_step G c d = Some c'.
  Proof using PL.
    intros c d c' Hin Hp. destruct (geo_step G c d) as [c''|] eqn:E.
    - f_equal. apply (proj2 PL); eauto using placed_in.
      apply geo_step_place in E. eapply same_place_trans; [|exact Hp].
      apply same_place_sym; auto.
    - exfalso. rewrite (proj1 PL) in E. eapply find_none in E; eauto. simpl in E. congruence.
  Qed.

  Lemma geo_step_none : forall c d,
    (forall c', In c' (geo_nodes G) ->
      same_place period (vadd (pos c) (ag_vec (geo_ax G) d)) (pos c') = false) ->
    geo_step G c d = None.
  Proof using PL.
    intros c d H. destruct (geo_step G c d) as [c'|] eqn:E; auto.
    pose proof (geo_step_place _ _ _ E). rewrite H in H0; [discriminate|].
    eapply placed_in; eauto.
  Qed.

  Lemma placed_sym : forall c d c' d', In c (geo_nodes G) ->
    geo_step G c d = Some c' -> opposite (geo_ax G) d d' -> geo_step G c' d' = Some c.
  Proof using PL.
    intros c d c' d' Hin H Ho. apply geo_step_some; auto.
    apply geo_step_place in H. unfold opposite in Ho. rewrite Ho.
    apply (same_place_shift _ _ _ (vneg (ag_vec (geo_ax G) d))) in H.
    rewrite vadd_neg in H. apply same_place_sym. exact H.
  Qed.
End Step.

(** ** [Refines]: a shape stores a board and moves as its geometry says.  [cell x y] is the coordinate stored at
    offset (x, y). *)
Record Refines {A D} (m : mode) (s : Shape Cell A D) (G : Geometry A D)
  (cell : Z -> Z -> Cell) : Prop := {
  rf_axis : AxisOK m (sh_axis s) (geo_ax G);
  rf_fits : fits (sh_horizontal s) (sh_vertical s);
  rf_eqb : forall a b, sh_eqb s a b = true <-> a = b;
  rf_nodes : geo_nodes G = board (sh_horizontal s) (sh_vertical s) cell;
  rf_coord : forall x y, 0 <= x < sh_horizontal s -> 0 <= y < sh_vertical s ->
    sh_offset_to_coordinate s m (x, y) = Ok (cell x y);
  rf_offset : forall x y, 0 <= x < sh_horizontal s -> 0 <= y < sh_vertical s ->
    sh_to_offset s m (cell x y) = Ok (Some (x, y));
  rf_offset_unchecked : forall x y, 0 <= x < sh_horizontal s -> 0 <= y < sh_vertical s ->
    sh_to_offset_unchecked s m (cell x y) = Ok (x, y);
  rf_move : forall c d, In c (geo_nodes G) -> sh_move_coord s m c d = Ok (geo_step G c d);
  rf_move_unchecked : forall c d c', In c (geo_nodes G) -> geo_step G c d = Some c' ->
    sh_move_coord_unchecked s m c d = Ok c';
  rf_coord_ok : forall c, In c (geo_nodes G) -> geo_coord G c /\ ~ geo_extreme G c;
  rf_off_board : forall c, geo_coord G c -> ~ In c (geo_nodes G) ->
    (m = Debug -> ~ geo_extreme G c) -> sh_to_offset s m c = Ok None;
  rf_extreme : forall c, geo_coord G c -> geo_extreme G c -> m = Debug ->
    sh_to_offset s m c = Fail FPanic
}.

(** The moves make a lattice: they stay on the board and can be undone. *)
Record Regular {A D} (s : Shape Cell A D) (G : Geometry A D) : Prop := {
  rg_in : forall c d c', geo_step G c d = Some c' -> In c' (geo_nodes G);
  rg_sym : forall c d c' d', In c (geo_nodes G) ->
    geo_step G c d = Some c' -> opposite (geo_ax G) d d' -> geo_step G c' d' = Some c;
  rg_is_neighbor : sh_is_neighbor s =
    default_is_neighbor (sh_axis s) (sh_eqb s) (sh_move_coord s)
}.
Arguments rg_in {A D s G}.
Arguments rg_sym {A D s G}.
Arguments rg_is_neighbor {A D s G}.

(** On undirected boards, a move against an axis leads to a cell that has an edge along this
    axis. *)
Definition Readable {A D} (G : Geometry A D) : Prop := forall c d c' a,
  ag_directed (geo_ax G) = false -> In c (geo_nodes G) -> geo_step G c d = Some c' ->
  opposite (geo_ax G) d (ag_fwd (geo_ax G) a) -> edge_exists G c' a.

Lemma regular_readable : forall A D (s : Shape Cell A D) G, Regular s G -> Readable G.
Proof.
  intros A D s G RG c d c' a _ Hc Hs Ho. split; [eapply (rg_in RG); eauto|].
  rewrite (rg_sym RG c d c' _ Hc Hs Ho). discriminate.
Qed.

Lemma default_move_coord_unchecked_ok : forall C D mv (m : mode) (c : C) (d : D) c',
  mv m c d = Ok (Some c') -> default_move_coord_unchecked mv m c d = Ok c'.
Proof. intros. unfold default_move_coord_unchecked. rewrite H. reflexivity. Qed.

Lemma pair_eqb_eq : forall a b, pair_eqb a b = true <-> a = b.
Proof.
  intros [a1 a2] [b1 b2]; unfold pair_eqb; simpl. rewrite andb_true_iff, !Z.eqb_eq.
  split; [intros [-> ->] | intros [= -> ->]]; auto.
Qed.

Lemma fits_bounds : forall w h, fits w h -> 0 <= w < IMAX1 /\ 0 <= h < IMAX1 /\ w * h < IMAX1.
Proof. unfold fits, IMAX1. intros w h (Hw & Hh & H). repeat split; try nia. Qed.

Lemma fits_alloc : forall w h, fits w h -> alloc_ok w h = true.
Proof. unfold fits, alloc_ok, IMAX1. intros w h (Hw & Hh & H). lia. Qed.
