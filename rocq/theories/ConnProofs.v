(** * ConnProofs: boards are connected. *)

From Verif Require Import Machine Store Axes Shapes Lattice Spec Spec2 Basics AxisProofs
  GeoProofs ShapeProofs StoreProofs Main1.
From Coq Require Import ZifyBool ZifyNat.
Ltac Zify.zify_post_hook ::= Z.div_mod_to_equations.

(** From every cell a step leads one column to the left, and in column 0 one row down. *)
Definition downhill {A D} (G : Geometry A D) : Prop := exists w h cell,
  geo_nodes G = board w h cell /\
  (forall x y, 0 < x < w -> 0 <= y < h ->
     exists d, geo_step G (cell x y) d = Some (cell (x - 1) y)) /\
  (forall y, 0 < w -> 0 < y < h -> exists d, geo_step G (cell 0 y) d = Some (cell 0 (y - 1))).

(** It suffices to find the vectors. *)
Lemma placed_downhill : forall A D (G : Geometry A D) pos period w h cell,
  placed G pos period -> geo_nodes G = board w h cell ->
  (forall x y, exists d, vadd (pos (cell x y)) (ag_vec (geo_ax G) d) = pos (cell (x - 1) y)) ->
  (forall y, exists d, vadd (pos (cell 0 y)) (ag_vec (geo_ax G) d) = pos (cell 0 (y - 1))) ->
  downhill G.
Proof.
  intros A D G pos period w h cell PL Hn Hl Hd. exists w, h, cell. split; auto. split.
  - intros x y Hx Hy. destruct (Hl x y) as (d & Hv). exists d. apply (geo_step_some PL).
    + rewrite Hn. apply in_board. exists (x - 1), y. repeat split; lia.
    + rewrite Hv. apply same_place_refl.
  - intros y Hw Hy. destruct (Hd y) as (d & Hv). exists d. apply (geo_step_some PL).
    + rewrite Hn. apply in_board. exists 0, (y - 1). repeat split; lia.
    + rewrite Hv. apply same_place_refl.
Qed.

Lemma hex_row_down : forall b y, exists d,
  vadd (offset_r_pos b (0, y)) (hexr_vec d) = offset_r_pos b (0, y - 1).
Proof.
  intros b y. unfold vadd, offset_r_pos. cbn [fst snd].
  destruct b, (Z.eq_dec (y mod 2) 0) as [E|E];
    first [exists RSE; cbn [hexr_vec fst snd]; apply pair_eq; lia
          |exists RSW; cbn [hexr_vec fst snd]; apply pair_eq; lia].
Qed.
Lemma axial_r_row_down : forall co y, exists d,
  vadd (axial_r_pos (axial_cell co 0 y)) (hexr_vec d) = axial_r_pos (axial_cell co 0 (y - 1)).
Proof.
  intros co y. unfold vadd, axial_r_pos, axial_cell. cbn [fst snd].
  destruct (Z.eq_dec ((y + co) mod 2) 0) as [E|E];
    first [exists RSE; cbn [hexr_vec fst snd]; apply pair_eq; lia
          |exists RSW; cbn [hexr_vec fst snd]; apply pair_eq; lia].
Qed.
Lemma axial_q_row_down : forall co y, exists d,
  vadd (axial_q_pos (axial_cell co 0 y)) (hexq_vec d) = axial_q_pos (axial_cell co 0 (y - 1)).
Proof.
  intros co y. unfold vadd, axial_q_pos, axial_cell. cbn [fst snd].
  destruct (Z.eq_dec ((y + co) mod 2) 0) as [E|E];
    first [exists QSE; cbn [hexq_vec fst snd]; apply pair_eq; lia
          |exists QS; cbn [hexq_vec fst snd]; apply pair_eq; lia].
Qed.

Ltac vec_to d :=
  exists d; unfold vadd, axial_r_pos, axial_q_pos, axial_cell, offset_r_pos;
  try (match goal with b : HexR |- _ => destruct b end);
  cbn -[Z.mul Z.modulo Z.add Z.sub Z.opp Z.div]; apply pair_eq; lia.

Lemma supported_downhill : forall A D (s : Shape Cell A D) G, Supported s G -> downhill G.
Proof.
  intros A D s G H. destruct H.
  - eapply placed_downhill; [apply square_inj|reflexivity| |]; intros; [vec_to DRX|vec_to DRY].
  - eapply placed_downhill; [apply square_inj|reflexivity| |]; intros; [vec_to DRX|vec_to DRY].
  - eapply placed_downhill; [apply square_inj|reflexivity| |]; intros; [vec_to DW|vec_to DS].
  - eapply placed_downhill; [apply square_inj|reflexivity| |]; intros; [vec_to DW|vec_to DS].
  - eapply placed_downhill; [apply offset_r_inj|reflexivity| |intros; apply hex_row_down];
      intros; vec_to RW.
  - eapply placed_downhill; [apply offset_r_inj|reflexivity| |intros; apply hex_row_down];
      intros; vec_to RW.
  - eapply placed_downhill; [apply offset_r_loop_inj|reflexivity| |intros; apply hex_row_down];
      intros; vec_to RW.
  - eapply placed_downhill; [apply axial_r_inj|reflexivity| |intros; apply axial_r_row_down];
      intros; vec_to RW.
  - eapply placed_downhill; [apply axial_r_inj|reflexivity| |intros; apply axial_r_row_down];
      intros; vec_to RW.
  - eapply placed_downhill; [apply axial_q_inj|reflexivity| |intros; apply axial_q_row_down];
      intros; vec_to QSW.
  - eapply placed_downhill; [apply axial_q_inj|reflexivity| |intros; apply axial_q_row_down];
      intros; vec_to QSW.
  - eapply placed_downhill; [apply axial_r_loop_inj|reflexivity| |intros; apply axial_r_row_down];
      intros; vec_to RW.
  - eapply placed_downhill; [apply axial_r_loop_inj|reflexivity| |intros; apply axial_r_row_down];
      intros; vec_to RW.
  - eapply placed_downhill; [apply axial_q_loop_inj|reflexivity| |intros; apply axial_q_row_down];
      intros; vec_to QSW.
  - eapply placed_downhill; [apply axial_q_loop_inj|reflexivity| |intros; apply axial_q_row_down];
      intros; vec_to QSW.
Qed.

Section Conn.
  Context {A D N E : Type} {m : mode} {s : Shape Cell A D} {G : Geometry A D}
    (SUP : Supported s G) (g : LatticeGraph Cell A D N E) (nf : Cell -> N) (ef : Cell -> A -> E)
    (HB : Built m s G g nf ef).

  Lemma reach_one : forall a d b, In a (geo_nodes G) -> geo_step G a d = Some b ->
    Reachable m g a b.
  Proof using SUP HB.
    intros a d b Ha Hs. eapply reach_step; [|apply (in_spec_neighbors (st_supported _ _ _ _ SUP)); eauto|apply reach_here].
    apply (c09 (st_supported _ _ _ _ SUP) g nf ef a Outgoing HB Ha).
  Qed.

  Lemma reach_trans : forall a b c, Reachable m g a b -> Reachable m g b c -> Reachable m g a c.
  Proof. intros a b c H. induction H; auto. intros Hc. eapply reach_step; eauto. Qed.

  (** Steps both ways. *)
  Lemma reach_both : forall a d b, In a (geo_nodes G) -> geo_step G a d = Some b ->
    Reachable m g a b /\ Reachable m g b a.
  Proof using SUP HB.
    intros a d b Ha Hs. split; [eapply reach_one; eauto|].
    destruct (step_back SUP a b d Ha Hs) as (d' & _ & Hs').
    eapply reach_one; [|exact Hs']. eapply (rg_in (supported_regular _ _ _ _ SUP)); eauto.
  Qed.

  Lemma c53 : forall a b, In a (geo_nodes G) -> In b (geo_nodes G) -> Reachable m g a b.
  Proof using SUP HB.
    destruct (supported_downhill _ _ _ _ SUP) as (w & h & cell & Hn & Hl & Hd).
    assert (Hin : forall x y, 0 <= x < w -> 0 <= y < h -> In (cell x y) (geo_nodes G)).
    { intros x y Hx Hy. rewrite Hn. apply in_board. exists x, y. auto. }
    assert (Hrow : forall n x y, Z.of_nat n = x -> 0 <= x < w -> 0 <= y < h ->
              Reachable m g (cell x y) (cell 0 y) /\ Reachable m g (cell 0 y) (cell x y)).
    { induction n; intros x y Hx Hw Hy.
      - replace x with 0 by lia. split; apply reach_here.
      - destruct (Hl x y ltac:(lia) Hy) as (d & Hs).
        destruct (reach_both _ _ _ (Hin x y Hw Hy) Hs) as [H1 H2].
        destruct (IHn (x - 1) y ltac:(lia) ltac:(lia) Hy) as [H3 H4].
        split; eapply reach_trans; eauto. }
    assert (Hcol : forall n y, Z.of_nat n = y -> 0 < w -> 0 <= y < h ->
              Reachable m g (cell 0 y) (cell 0 0) /\ Reachable m g (cell 0 0) (cell 0 y)).
    { induction n; intros y Hy Hw Hh.
      - replace y with 0 by lia. split; apply reach_here.
      - destruct (Hd y Hw ltac:(lia)) as (d & Hs).
        destruct (reach_both _ _ _ (Hin 0 y ltac:(lia) Hh) Hs) as [H1 H2].
        destruct (IHn (y - 1) ltac:(lia) Hw ltac:(lia)) as [H3 H4].
        split; eapply reach_trans; eauto. }
    intros a b Ha Hb. rewrite Hn in Ha, Hb. apply in_board in Ha. apply in_board in Hb.
    destruct Ha as (x & y & Hx & Hy & ->). destruct Hb as (x' & y' & Hx' & Hy' & ->).
    destruct (Hrow (Z.to_nat x) x y ltac:(lia) Hx Hy) as [A1 _].
    destruct (Hcol (Z.to_nat y) y ltac:(lia) ltac:(lia) Hy) as [A2 _].
    destruct (Hcol (Z.to_nat y') y' ltac:(lia) ltac:(lia) Hy') as [_ A3].
    destruct (Hrow (Z.to_nat x') x' y' ltac:(lia) Hx' Hy') as [_ A4].
    eauto using reach_trans.
  Qed.
End Conn.
