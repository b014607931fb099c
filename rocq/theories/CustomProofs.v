(** * CustomProofs: a shape that keeps the contract of Spec19.v implements its geometry. *)

From Verif Require Import Machine Store Axes Shapes Lattice Spec Spec19 Basics AxisProofs
  GeoProofs ShapeProofs StoreProofs GraphProofs RepProofs IterProofs EdgeProofs VisitProofs Main1.
From Coq Require Import ZifyBool ZifyNat.

Section Axis.
  Context {A D : Type} {m : mode} {s : Shape Cell A D} {axes : list A} {fwd : A -> D}
    {opp : D -> D} (AC : AxisContract m (sh_axis s) axes fwd opp).
  Notation ax := (sh_axis s).
  Notation dirs := (all_dirs (ax_DIRECTED ax) axes fwd opp).
  Notation num d := (dir_to_index (ax_dir ax) d).

  Lemma num_inj : forall d d', num d = num d' -> d = d'.
  Proof using AC.
    intros d d' H. pose proof (axc_dto_index _ _ _ _ _ AC d) as H1.
    pose proof (axc_dto_index _ _ _ _ _ AC d') as H2. rewrite H in H1. congruence.
  Qed.

  Lemma fwd_nth : forall a, nth_error dirs (ax_to_index ax a) = Some (fwd a).
  Proof using AC.
    intros a. unfold all_dirs. pose proof (axc_to_index _ _ _ _ _ AC a) as H.
    rewrite nth_error_app1, nth_error_map, H; auto.
    rewrite map_length. apply nth_error_Some. congruence.
  Qed.

  Lemma bwd_nth : forall a, ax_DIRECTED ax = false ->
    nth_error dirs (ax_COUNT ax + ax_to_index ax a) = Some (opp (fwd a)).
  Proof using AC.
    intros a Hd. unfold all_dirs. rewrite Hd, (axc_count _ _ _ _ _ AC).
    pose proof (axc_to_index _ _ _ _ _ AC a) as H.
    rewrite nth_error_app2 by (rewrite map_length; lia). rewrite map_length.
    replace (length axes + ax_to_index ax a - length axes)%nat with (ax_to_index ax a) by lia.
    rewrite nth_error_map, H. reflexivity.
  Qed.

  Lemma fwd_num : forall a, num (fwd a) = ax_to_index ax a.
  Proof using AC. intros a. apply (axc_dindex _ _ _ _ _ AC), fwd_nth. Qed.

  Lemma bwd_num : forall a, ax_DIRECTED ax = false ->
    num (opp (fwd a)) = (ax_COUNT ax + ax_to_index ax a)%nat.
  Proof using AC. intros a Hd. apply (axc_dindex _ _ _ _ _ AC), bwd_nth; auto. Qed.

  Lemma to_index_lt : forall a, (ax_to_index ax a < ax_COUNT ax)%nat.
  Proof using AC.
    intros a. rewrite (axc_count _ _ _ _ _ AC). apply nth_error_Some.
    rewrite (axc_to_index _ _ _ _ _ AC a). discriminate.
  Qed.

  Lemma dir_cases : forall d, (exists a, d = fwd a) \/
    (ax_DIRECTED ax = false /\ exists a, d = opp (fwd a)).
  Proof using AC.
    intros d. pose proof (nth_error_In _ _ (axc_dto_index _ _ _ _ _ AC d)) as H.
    unfold all_dirs in H. apply in_app_iff in H. destruct H as [H|H].
    - apply in_map_iff in H. destruct H as (a & H & _). left. eauto.
    - destruct (ax_DIRECTED ax) eqn:E; [destruct H|]. apply in_map_iff in H.
      destruct H as (a & H & _). right. eauto.
  Qed.

  Lemma fwd_ne_bwd : ax_DIRECTED ax = false -> forall a a', fwd a <> opp (fwd a').
  Proof using AC.
    intros Hd a a' H. apply (f_equal (fun d => num d)) in H. rewrite fwd_num, bwd_num in H by auto.
    pose proof (to_index_lt a). lia.
  Qed.

  Context {cell : Z -> Z -> Cell} {step : Cell -> D -> option Cell} {coord : Cell -> Prop}.
  Notation G := (contract_geometry s axes fwd opp cell step coord).

  Lemma opposite_iff : forall d d', opposite (geo_ax G) d d' <-> d' = opp d.
  Proof using AC.
    intros d d'. unfold opposite, vneg. cbn [geo_ax contract_geometry ag_vec].
    split.
    - intros H.
      assert (T : forall e, num e <> num (opp e)).
      { intros e He. apply num_inj in He. exact (axc_turn _ _ _ _ _ AC e (eq_sym He)). }
      destruct (Z.ltb_spec (Z.of_nat (num d')) (Z.of_nat (num (opp d'))));
      destruct (Z.ltb_spec (Z.of_nat (num d)) (Z.of_nat (num (opp d))));
      cbn [fst snd] in H; injection H as H; try lia.
      + apply num_inj. lia.
      + assert (opp d' = d) as <- by (apply num_inj; lia). symmetry. apply (axc_opp _ _ _ _ _ AC).
    - intros ->. rewrite (axc_opp _ _ _ _ _ AC).
      assert (T : num d <> num (opp d)).
      { intros He. apply num_inj in He. exact (axc_turn _ _ _ _ _ AC d (eq_sym He)). }
      destruct (Z.ltb_spec (Z.of_nat (num (opp d))) (Z.of_nat (num d)));
      destruct (Z.ltb_spec (Z.of_nat (num d)) (Z.of_nat (num (opp d))));
      cbn [fst snd]; try lia; f_equal; lia.
  Qed.

  Lemma contract_vec_inj : forall d d', ag_vec (geo_ax G) d = ag_vec (geo_ax G) d' -> d = d'.
  Proof using AC.
    intros d d' H.
    assert (O : opposite (geo_ax G) (opp d) d') .
    { unfold opposite. rewrite <- H. apply opposite_iff. symmetry. apply (axc_opp _ _ _ _ _ AC). }
    apply opposite_iff in O. rewrite (axc_opp _ _ _ _ _ AC) in O. auto.
  Qed.

  Lemma contract_axis : AxisOK m ax (geo_ax G).
  Proof using AC.
    assert (FI : forall a a', fwd a = fwd a' -> a = a').
    { intros a a' H. apply (f_equal (fun d => num d)) in H. rewrite !fwd_num in H.
      pose proof (axc_to_index _ _ _ _ _ AC a) as H1.
      pose proof (axc_to_index _ _ _ _ _ AC a') as H2. rewrite H in H1. congruence. }
    pose proof (axc_to_index _ _ _ _ _ AC) as T.
    assert (IN : forall a, In a axes) by (intros a; eapply nth_error_In; apply T).
    constructor; cbn [geo_ax contract_geometry ag_axes ag_dirs ag_fwd ag_directed].
    - apply AC.
    - apply AC.
    - reflexivity.
    - apply AC.
    - apply AC.
    - apply AC.
    - apply AC.
    - apply AC.
    - apply AC.
    - apply AC.
    - apply AC.
    - apply AC.
    - intros a. exists (opp (fwd a)). split; [apply AC|]. apply opposite_iff. reflexivity.
    - apply contract_vec_inj.
    - intros d. cbn [ag_vec]. destruct (Z.ltb_spec (Z.of_nat (num d)) (Z.of_nat (num (opp d))));
        intros E; injection E; lia.
    - apply FI.
    - apply fwd_num.
    - intros d. exists (opp d). apply opposite_iff. reflexivity.
    - intros d. destruct (dir_cases d) as [(a & ->) | (Hd & a & ->)].
      + left. exists a. split; auto. split; [|split; apply AC].
        apply find_first.
        * intros y z Hy Hz. apply veqb_eq in Hy. apply veqb_eq in Hz.
          apply FI. apply contract_vec_inj. exact (eq_trans Hy (eq_sym Hz)).
        * apply IN.
        * apply veqb_eq. reflexivity.
      + right. split; auto. exists a.
        assert (O : opposite (geo_ax G) (opp (fwd a)) (fwd a))
          by (apply opposite_iff; symmetry; apply AC).
        split; [exact O|]. split; [|split; [|split; [|split]]].
        * destruct (find _ _) as [a'|] eqn:Ef; auto. exfalso. apply find_some in Ef.
          destruct Ef as [_ Ef]. apply veqb_eq in Ef. apply contract_vec_inj in Ef.
          exact (fwd_ne_bwd Hd _ _ Ef).
        * apply find_first.
          -- intros y z Hy Hz. apply veqb_eq in Hy. apply veqb_eq in Hz.
             apply FI. apply contract_vec_inj. exact (eq_trans Hy (eq_sym Hz)).
          -- apply IN.
          -- apply veqb_eq. exact O.
        * apply AC; auto.
        * apply AC; auto.
        * apply bwd_num; auto.
    - intros Hd d. destruct (dir_cases d) as [(a & ->) | (Hd' & _)]; [eauto|congruence].
    - intros Hd a a' O. apply opposite_iff in O. exact (fwd_ne_bwd Hd _ _ O).
  Qed.
End Axis.

Section Shape.
  Context {A D : Type} {m : mode} {s : Shape Cell A D} {axes : list A} {fwd : A -> D}
    {opp : D -> D} {cell : Z -> Z -> Cell} {step : Cell -> D -> option Cell}
    {coord : Cell -> Prop} (SC : ShapeContract m s axes fwd opp cell step coord).
  Notation G := (contract_geometry s axes fwd opp cell step coord).

  Lemma contract_refines : Refines m s G cell.
  Proof using SC.
    pose proof (contract_axis (cell := cell) (step := step) (coord := coord) (shc_axis _ _ _ _ _ _ _ _ SC)) as AX.
    constructor; cbn [geo_nodes geo_step geo_coord geo_extreme contract_geometry].
    - exact AX.
    - apply SC.
    - apply SC.
    - reflexivity.
    - intros x y Hx Hy. apply (shc_cell _ _ _ _ _ _ _ _ SC x y Hx Hy).
    - intros x y Hx Hy. apply (shc_cell _ _ _ _ _ _ _ _ SC x y Hx Hy).
    - intros x y Hx Hy. apply (shc_cell _ _ _ _ _ _ _ _ SC x y Hx Hy).
    - apply SC.
    - apply SC.
    - intros c Hc. apply in_board in Hc. destruct Hc as (x & y & Hx & Hy & ->).
      split; [apply (shc_cell _ _ _ _ _ _ _ _ SC x y Hx Hy)|]. intros [].
    - intros c Hc Hn _. apply (shc_outside _ _ _ _ _ _ _ _ SC); auto.
    - intros c _ [].
  Qed.

  Lemma contract_regular : Regular s G.
  Proof using SC.
    constructor; cbn [geo_nodes geo_step contract_geometry].
    - apply SC.
    - intros c d c' d' Hc Hs O. apply (opposite_iff (shc_axis _ _ _ _ _ _ _ _ SC)) in O. subst d'.
      eapply (shc_return _ _ _ _ _ _ _ _ SC); eauto.
    - apply SC.
  Qed.
End Shape.
