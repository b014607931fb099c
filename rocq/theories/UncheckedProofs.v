(** * UncheckedProofs: the unchecked functions outside of their contract. *)

From Verif Require Import Machine Store Axes Shapes Lattice Spec Spec15 Basics AxisProofs GeoProofs
  GraphProofs RepProofs Main1.
From Coq Require Import ZifyBool ZifyNat.
Ltac Zify.zify_post_hook ::= Z.div_mod_to_equations.

Lemma default_move_none : forall C D mv (m : mode) (c : C) (d : D),
  mv m c d = Ok None -> default_move_coord_unchecked mv m c d = Fail (unguarded m).
Proof. intros. unfold default_move_coord_unchecked. rewrite H. destruct m; reflexivity. Qed.

Lemma c105_move : forall w h,
  (moves_guarded (square_shape w h) /\ moves_guarded (square_dir_shape w h) /\
   moves_guarded (diagonal_shape w h) /\ moves_guarded (diagonal_dir_shape w h) /\
   moves_guarded (double_shape w h)) /\
  (forall b, moves_guarded (hex_offset_r b w h) /\ moves_guarded (hex_offset_r_dir b w h) /\
     moves_guarded (hex_offset_r_lew b w h)) /\
  (forall b, moves_guarded (hex_offset_q b w h) /\ moves_guarded (hex_offset_q_dir b w h) /\
     moves_guarded (hex_offset_q_lew b w h)) /\
  (forall k b, moves_guarded (hex_axial_r_lew k b w h) /\
     moves_guarded (hex_axial_r_dir_lew k b w h)) /\
  (forall k b, moves_guarded (hex_axial_q_lew k b w h) /\
     moves_guarded (hex_axial_q_dir_lew k b w h)).
Proof.
  intros w h. repeat split; intros m c d; apply default_move_none.
Qed.

Lemma axial_bare : forall A D (ax : AxisOps A D) k mv flat even w h,
  moves_bare (axial_shape ax k mv flat even w h).
Proof.
  intros A D ax k mv flat even w h m c d. cbn [axial_shape sh_move_coord sh_move_coord_unchecked
    sh_to_offset]. unfold axial_move_coord. destruct (mv m c d) as [c'|f]; cbn [bind]; [|discriminate].
  destruct (axial_to_offset flat (convert_offset even) w h m c') as [[o|]|f] eqn:Eo; cbn [bind];
    intros H; try discriminate H. exists c'. auto.
Qed.

Lemma c105_move_bare : forall k w h,
  (forall b, moves_bare (hex_axial_r k b w h) /\ moves_bare (hex_axial_r_dir k b w h)) /\
  (forall b, moves_bare (hex_axial_q k b w h) /\ moves_bare (hex_axial_q_dir k b w h)).
Proof. intros k w h. split; intros b; split; apply axial_bare. Qed.

(** ** Offsets *)

Definition outside (w h : Z) (o : Offset) : Prop := w <= fst o \/ h <= snd o.

Lemma range_none : forall w h m c, range_check w h m c = Ok None -> outside w h c.
Proof.
  intros w h m c. unfold range_check, outside.
  destruct (_ : bool) eqn:Eb; intros H; try discriminate H. lia.
Qed.

Lemma add_cases : forall m x y,
  (exists z, usize_add m x y = Ok z) \/ (m = Debug /\ usize_add m x y = Fail FPanic).
Proof.
  intros m x y. unfold usize_add, wrap_usize. destruct (_ : bool); [left; eauto|].
  destruct m; [right; auto|left; eauto].
Qed.

Lemma iadd_cases : forall m x y,
  (exists z, isize_add m x y = Ok z) \/ (m = Debug /\ isize_add m x y = Fail FPanic).
Proof.
  intros m x y. unfold isize_add, wrap_isize. destruct (_ : bool); [left; eauto|].
  destruct m; [right; auto|left; eauto].
Qed.

Lemma axial_none : forall flat co w h m c, axial_to_offset flat co w h m c = Ok None ->
  (exists o, axial_to_offset_unchecked flat co m c = Ok o /\ outside w h o) \/
  (m = Debug /\ axial_to_offset_unchecked flat co m c = Fail FPanic).
Proof.
  intros flat co w h m [r q]. unfold axial_to_offset, axial_to_offset_unchecked, axial_shift, outside.
  destruct flat.
  - destruct (as_usize r <? w) eqn:Ew.
    + destruct (usize_add m (as_usize r) co) as [y|]; cbn [bind]; [|discriminate].
      destruct (isize_add m q (as_isize (y / 2))) as [v'|]; cbn [bind]; [|discriminate].
      destruct (as_usize v' <? h) eqn:Eh; [discriminate|]. intros _. left.
      eexists; split; [reflexivity|]. cbn [fst snd]. right. lia.
    + intros _. destruct (add_cases m (as_usize r) co) as [(y & ->)|[-> ->]]; [|right; auto].
      cbn [bind]. destruct (iadd_cases m q (as_isize (y / 2))) as [(v' & ->)|[-> ->]]; [|right; auto].
      left. eexists; split; [reflexivity|]. cbn [fst snd]. left. lia.
  - destruct (as_usize q <? h) eqn:Ew.
    + destruct (usize_add m (as_usize q) co) as [y|]; cbn [bind]; [|discriminate].
      destruct (isize_add m r (as_isize (y / 2))) as [v'|]; cbn [bind]; [|discriminate].
      destruct (as_usize v' <? w) eqn:Eh; [discriminate|]. intros _. left.
      eexists; split; [reflexivity|]. cbn [fst snd]. left. lia.
    + intros _. destruct (add_cases m (as_usize q) co) as [(y & ->)|[-> ->]]; [|right; auto].
      cbn [bind]. destruct (iadd_cases m r (as_isize (y / 2))) as [(v' & ->)|[-> ->]]; [|right; auto].
      left. eexists; split; [reflexivity|]. cbn [fst snd]. right. lia.
Qed.

Lemma offset_none : forall A D m (s : Shape Cell A D) G, Stored s G ->
  forall c, sh_to_offset s m c = Ok None ->
  (exists o, sh_to_offset_unchecked s m c = Ok o /\ outside (sh_horizontal s) (sh_vertical s) o) \/
  sh_to_offset_unchecked s m c = Fail (unguarded m).
Proof.
  assert (AXI : forall m flat co w h c, axial_to_offset flat co w h m c = Ok None ->
    (exists o, axial_to_offset_unchecked flat co m c = Ok o /\ outside w h o) \/
    axial_to_offset_unchecked flat co m c = Fail (unguarded m)).
  { intros m flat co w h c H. destruct (axial_none _ _ _ _ _ _ H) as [?|[-> ?]]; auto. }
  intros A D m s G STO c. destruct STO as [A D s G SUP| | | | | | | |]; [destruct SUP|..]; intros HN;
    try (apply AXI; exact HN);
    try (left; exists c; split; [reflexivity|exact (range_none _ _ m _ HN)]).
  - right. cbn [sh_to_offset square_dir_shape] in HN.
    cbn [sh_to_offset_unchecked square_dir_shape]. unfold default_to_offset_unchecked. rewrite HN.
    destruct m; reflexivity.
  - left. cbn [sh_to_offset double_shape] in HN. unfold double_to_offset in HN.
    eexists; split; [reflexivity|]. unfold outside. cbn [fst snd sh_horizontal sh_vertical double_shape].
    destruct ((fst c / 2 <? w) && (snd c <? h)) eqn:Eb; [discriminate HN|lia].
Qed.

Lemma get_outside : forall X (a : Array2 X) w h o, array_wf a w h -> outside w h o ->
  array_get a (fst o) (snd o) = None.
Proof.
  intros X a w h o (H1 & H2 & _) Ho. unfold array_get, in_bounds, outside in *. rewrite H1, H2.
  destruct (_ : bool) eqn:Eb; auto. lia.
Qed.

Section U.
  Context {A D N E : Type} {m : mode} {s : Shape Cell A D} {G : Geometry A D} (STO : Stored s G).
  Notation graph := (LatticeGraph Cell A D N E).


  Lemma c105_off : forall (g : graph) nf ef, Built m s G g nf ef ->
    forall c, sh_to_offset s m c = Ok None ->
    lost m (node_weight_unchecked m g c) /\
    (forall a, lost m (edge_weight_unchecked m g (c, a))) /\
    (forall f, lost m (node_weight_mut_unchecked m g c f)) /\
    (forall a f, lost m (edge_weight_mut_unchecked m g (c, a) f)).
  Proof.
    intros g nf ef HB c Hc. pose proof (offset_none _ _ m _ _ STO c Hc) as HO.
    refine_store m STO. destruct (built_rep RF _ _ _ HB) as [Hs (Hw & _ & _ & He)].
    unfold node_weight_unchecked, edge_weight_unchecked, node_weight_mut_unchecked,
      edge_weight_mut_unchecked. cbn [fst snd]. rewrite Hs.
    destruct HO as [(o & -> & Ho)| ->]; cbn [bind].
    - unfold node_weight_unchecked_raw, edge_weight_unchecked_raw, update_slot_unchecked,
        edges_get_unchecked. rewrite (get_outside _ _ _ _ _ Hw Ho). cbn [unwrap_unchecked bind].
      repeat split; intros; try (left; reflexivity).
      + destruct (He a) as (arr & -> & Ha & _). cbn [bind]. rewrite (get_outside _ _ _ _ _ Ha Ho).
        left; reflexivity.
      + destruct (He a) as (arr & -> & Ha & _). cbn [bind]. rewrite (get_outside _ _ _ _ _ Ha Ho).
        left; reflexivity.
    - unfold unguarded. destruct m; repeat split; intros; unfold lost; auto.
  Qed.

  Lemma c105_no_edge : forall (g : graph) nf ef, Built m s G g nf ef ->
    forall c a, In c (geo_nodes G) -> ~ edge_exists G c a ->
    edge_weight_unchecked m g (c, a) = Fail FUB.
  Proof.
    intros g nf ef HB c a Hc Hn. refine_store m STO.
    destruct (built_rep RF _ _ _ HB) as [Hs (_ & _ & _ & He)].
    pose proof Hc as Hi. rewrite (rf_nodes _ _ _ _ RF) in Hi. apply in_board in Hi.
    destruct Hi as (x & y & Hx & Hy & ->).
    unfold edge_weight_unchecked. cbn [fst snd]. rewrite Hs, (rf_offset_unchecked _ _ _ _ RF) by auto.
    cbn [bind]. unfold edge_weight_unchecked_raw, edges_get_unchecked.
    destruct (He a) as (arr & -> & Ha & Hg). cbn [bind fst snd]. rewrite Hg by auto.
    cbn [unwrap_unchecked bind]. unfold opt_edge.
    destruct (geo_step G (cell x y) (ag_fwd (geo_ax G) a)) as [c'|] eqn:Es; [|reflexivity].
    destruct Hn. split; auto. rewrite Es. discriminate.
  Qed.
End U.
