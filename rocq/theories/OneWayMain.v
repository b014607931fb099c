(** * OneWayMain: what does not depend on the way back, and shapes that have none (C116). *)

From Verif Require Import Machine Store Axes Shapes Lattice Spec Spec19 Spec20 Basics AxisProofs
  GeoProofs ShapeProofs StoreProofs GraphProofs RepProofs IterProofs EdgeProofs UnsafeProofs
  CustomProofs CustomDemo OneWayProofs.
From Coq Require Import ZifyBool ZifyNat.

Lemma contract_one_way : forall A D m (s : Shape Cell A D) axes fwd opp cell step coord,
  ShapeContract m s axes fwd opp cell step coord <->
  OneWayContract m s axes fwd opp cell step coord /\
  (forall c d c', In c (board (sh_horizontal s) (sh_vertical s) cell) ->
     step c d = Some c' -> step c' (opp d) = Some c).
Proof.
  intros A D m s axes fwd opp cell step coord. split.
  - intros []. split; [constructor|]; assumption.
  - intros [[] H]. constructor; assumption.
Qed.

Section Rest.
  Context {A D N E : Type} {m : mode} {s : Shape Cell A D} {axes : list A} {fwd : A -> D}
    {opp : D -> D} {cell : Z -> Z -> Cell} {step : Cell -> D -> option Cell}
    {coord : Cell -> Prop} (SC : OneWayContract m s axes fwd opp cell step coord).
  Notation G := (contract_geometry s axes fwd opp cell step coord).
  Notation nodes := (board (sh_horizontal s) (sh_vertical s) cell).
  Notation dirs := (all_dirs (ax_DIRECTED (sh_axis s)) axes fwd opp).
  Notation graph := (LatticeGraph Cell A D N E).
  Let RF := ow_refines SC.

  Lemma ow_new : forall (nf : Cell -> N) (ef : Cell -> A -> E), exists g : graph,
    new_with s (fun st c => (nf c, st)) (fun st c a => (ef c a, st)) m tt = Ok (g, tt) /\
    Built m s G g nf ef.
  Proof using RF.
    intros nf ef. destruct (new_with_rep RF nf ef) as (g & H & _). exists g. split; auto.
    apply built_new. auto.
  Qed.

  Lemma ow_rest : forall (g : graph) nf ef, Built m s G g nf ef ->
    (forall c, In c nodes -> node_weight m g c = Ok (Some (nf c))) /\
    (forall c a, In c nodes -> step c (fwd a) <> None ->
       edge_weight m g (c, a) = Ok (Some (ef c a))) /\
    Drains (node_indices_next m (g_s g)) (node_identifiers g) nodes /\
    Drains (node_references_next m g) (node_references g) (map (fun c => (c, nf c)) nodes) /\
    (forall c, In c nodes ->
       Drains (neighbors_next m g c) (neighbors g c) (step_neighbors dirs step c)) /\
    Drains (edge_references_next m g) (edge_references g)
      (step_edge_references nodes axes fwd step ef).
  Proof using RF.
    intros g nf ef HB. pose proof (built_rep RF _ _ _ HB) as HR. pose proof HR as [Hs _].
    split; [intros c Hc; eapply (rep_node_weight RF); eauto|].
    split; [intros c a Hc Ha; eapply (rep_edge_weight RF); eauto; split; auto|].
    split; [|split; [|split]].
    - rewrite Hs. eapply IterInv_drains; [apply (node_indices_inv RF)|].
      rewrite <- (map_id nodes). apply (node_pos_start RF).
    - eapply IterInv_drains; [eapply (node_references_inv RF); eauto|]. apply (node_pos_start RF).
    - intros c Hc. change (step_neighbors dirs step c) with (spec_neighbors G c).
      eapply IterInv_drains; [apply (neighbors_inv RF); auto|]. apply nb_pos_start.
    - eapply IterInv_drains; [eapply (edge_references_inv RF); eauto|].
      apply (ers_pos_start RF).
  Qed.
End Rest.

(** ** A square board with a choice of what is behind its left and its right rim *)

Inductive Rim := Wall | Around | Askew.

(** The right rim: nothing, the first cell of the row, or the first cell of the next row. *)
Definition roller_target (e1 e2 : Rim) (w h : Z) (c : Cell) (d : DirectedSquareAxis)
  : option Cell :=
  let (x, y) := c in
  match d with
  | DX => if x + 1 <? w then Some (x + 1, y) else
          match e1 with
          | Wall => None
          | Around => Some (0, y)
          | Askew => Some (0, if y + 1 <? h then y + 1 else 0)
          end
  | DY => if y + 1 <? h then Some (x, y + 1) else None
  | DRX => if 1 <=? x then Some (x - 1, y) else
           match e2 with
           | Wall => None
           | Around => Some (w - 1, y)
           | Askew => Some (w - 1, if 1 <=? y then y - 1 else h - 1)
           end
  | DRY => if 1 <=? y then Some (x, y - 1) else None
  end.
Definition roller_move (e1 e2 : Rim) (w h : Z) (m : mode) (c : Cell) (d : DirectedSquareAxis)
  : outcome (option Cell) := Ok (roller_target e1 e2 w h c d).
Definition roller_step (e1 e2 : Rim) (w h : Z) (c : Cell) (d : DirectedSquareAxis)
  : option Cell := if on_board w h c then roller_target e1 e2 w h c d else None.

Definition roller (e1 e2 : Rim) (w h : Z) : Shape Cell SquareAxis DirectedSquareAxis := {|
  sh_axis := sq_axis;
  sh_eqb := pair_eqb;
  sh_horizontal := w;
  sh_vertical := h;
  sh_to_offset := range_check w h;
  sh_to_offset_unchecked := default_to_offset_unchecked (range_check w h);
  sh_offset_to_coordinate := fun _ o => Ok o;
  sh_horizontal_edge_size := fun _ _ => Ok w;
  sh_vertical_edge_size := fun _ _ => Ok h;
  sh_move_coord := roller_move e1 e2 w h;
  sh_move_coord_unchecked := default_move_coord_unchecked (roller_move e1 e2 w h);
  sh_is_neighbor := default_is_neighbor sq_axis pair_eqb (roller_move e1 e2 w h)
|}.

(** The same with an edge for each direction. *)
Definition roller_dir (e1 e2 : Rim) (w h : Z)
  : Shape Cell DirectedSquareAxis DirectedSquareAxis := {|
  sh_axis := dsq_axis;
  sh_eqb := pair_eqb;
  sh_horizontal := w;
  sh_vertical := h;
  sh_to_offset := range_check w h;
  sh_to_offset_unchecked := default_to_offset_unchecked (range_check w h);
  sh_offset_to_coordinate := fun _ o => Ok o;
  sh_horizontal_edge_size := fun _ _ => Ok w;
  sh_vertical_edge_size := fun _ _ => Ok h;
  sh_move_coord := roller_move e1 e2 w h;
  sh_move_coord_unchecked := default_move_coord_unchecked (roller_move e1 e2 w h);
  sh_is_neighbor := default_is_neighbor dsq_axis pair_eqb (roller_move e1 e2 w h)
|}.

Lemma some_pair : forall a b c d : Z, a = c -> b = d -> Some (a, b) = Some (c, d).
Proof. congruence. Qed.

Ltac split_ifs := repeat match goal with
  | |- context [if ?b then _ else _] =>
      lazymatch b with context [if _ then _ else _] => fail | _ => destruct b eqn:? end
  | H : context [if ?b then _ else _] |- _ =>
      lazymatch b with context [if _ then _ else _] => fail | _ => destruct b eqn:? end
  end.

Lemma roller_stay : forall e1 e2 w h c d c', roller_step e1 e2 w h c d = Some c' ->
  In c' (board w h (fun x y => (x, y))).
Proof.
  intros e1 e2 w h [x y] d c' H. apply on_board_in. unfold roller_step in H.
  destruct (on_board w h (x, y)) eqn:Hb; [|discriminate]. unfold on_board in *.
  cbn [fst snd] in Hb. unfold roller_target in H.
  destruct d, e1, e2; split_ifs; try discriminate; injection H as <-; cbn [fst snd]; lia.
Qed.

Lemma roller_one_way : forall m e1 e2 w h, fits w h ->
  OneWayContract m (roller e1 e2 w h) [SX; SY] sq_fwd dsq_backward (fun x y => (x, y))
    (roller_step e1 e2 w h) usize_pair.
Proof.
  intros m e1 e2 w h F.
  constructor; cbn [roller sh_axis sh_horizontal sh_vertical sh_eqb sh_to_offset
    sh_to_offset_unchecked sh_offset_to_coordinate sh_move_coord sh_move_coord_unchecked
    sh_is_neighbor].
  - apply sq_contract.
  - exact F.
  - apply pair_eqb_eq.
  - intros x y Hx Hy. destruct (rect_cell w h m x y F Hx Hy) as [H1 H2]. split; auto.
    unfold default_to_offset_unchecked. rewrite H2. auto.
  - intros c Hc Hn. apply rect_outside; auto.
  - intros c d Hc. apply on_board_in in Hc. unfold roller_step, roller_move. rewrite Hc. auto.
  - intros c d c' Hc Hs. apply on_board_in in Hc. unfold roller_step in Hs. rewrite Hc in Hs.
    apply default_move_coord_unchecked_ok. unfold roller_move. congruence.
  - apply roller_stay.
  - reflexivity.
Qed.

Lemma roller_dir_one_way : forall m e1 e2 w h, fits w h ->
  OneWayContract m (roller_dir e1 e2 w h) [DX; DY; DRX; DRY] (fun d => d) dsq_backward
    (fun x y => (x, y)) (roller_step e1 e2 w h) usize_pair.
Proof.
  intros m e1 e2 w h F.
  constructor; cbn [roller_dir sh_axis sh_horizontal sh_vertical sh_eqb sh_to_offset
    sh_to_offset_unchecked sh_offset_to_coordinate sh_move_coord sh_move_coord_unchecked
    sh_is_neighbor].
  - apply dsq_contract.
  - exact F.
  - apply pair_eqb_eq.
  - intros x y Hx Hy. destruct (rect_cell w h m x y F Hx Hy) as [H1 H2]. split; auto.
    unfold default_to_offset_unchecked. rewrite H2. auto.
  - intros c Hc Hn. apply rect_outside; auto.
  - intros c d Hc. apply on_board_in in Hc. unfold roller_step, roller_move. rewrite Hc. auto.
  - intros c d c' Hc Hs. apply on_board_in in Hc. unfold roller_step in Hs. rewrite Hc in Hs.
    apply default_move_coord_unchecked_ok. unfold roller_move. congruence.
  - apply roller_stay.
  - reflexivity.
Qed.

(** With the same behind both rims, the shape keeps the whole contract. *)
Lemma roller_contract : forall m e w h, fits w h ->
  ShapeContract m (roller e e w h) [SX; SY] sq_fwd dsq_backward (fun x y => (x, y))
    (roller_step e e w h) usize_pair.
Proof.
  intros m e w h F. apply contract_one_way. split; [apply roller_one_way, F|].
  intros c d c' Hc Hs. pose proof (roller_stay _ _ _ _ _ _ _ Hs) as Hin.
  apply on_board_in in Hin. cbn [roller sh_horizontal sh_vertical] in Hc.
  apply on_board_in in Hc. unfold roller_step in *. rewrite Hin. rewrite Hc in Hs.
  destruct c as [x y]. unfold on_board in *. cbn [fst snd] in *.
  unfold roller_target in Hs.
  destruct d, e; cbn [dsq_backward]; split_ifs; try discriminate; injection Hs as <-;
    cbn [fst snd roller_target] in *; split_ifs; try lia; apply some_pair; lia.
Qed.

(** A loop that only works to the left. *)
Lemma roller_half : forall (N E : Type) m w h (g : LatticeGraph Cell SquareAxis DirectedSquareAxis N E)
  nf ef y, fits w h -> 0 <= y < h -> 1 <= w ->
  Built m (roller Wall Around w h) (contract_geometry (roller Wall Around w h) [SX; SY] sq_fwd
    dsq_backward (fun x y => (x, y)) (roller_step Wall Around w h) usize_pair) g nf ef ->
  exists it it', edges m g (0, y) = Ok it /\
    Consumed (edges_next m g) it (along sq_fwd (roller_step Wall Around w h) ef (0, y) [SX; SY]) it' /\
    edges_next m g it' = Fail FUB.
Proof.
  intros N E m w h g nf ef y F Hy Hw HB.
  assert (Hb0 : on_board w h (0, y) = true) by (unfold on_board; cbn [fst snd]; lia).
  assert (Hb1 : on_board w h (w - 1, y) = true) by (unfold on_board; cbn [fst snd]; lia).
  destruct (ow_edges_ub (roller_one_way m Wall Around w h F) g nf ef HB (0, y)) with
    (l1 := @nil SquareAxis) (a0 := SX) (l2 := [SY]) (c0 := (w - 1, y)) (k := AxisDirMarker)
    as (it & it' & H1 & H2 & H3); auto.
  - apply on_board_in. exact Hb0.
  - intros a [].
  - cbn [sq_fwd dsq_backward]. unfold roller_step. rewrite Hb0. reflexivity.
  - cbn [sq_fwd]. unfold roller_step. rewrite Hb1. cbn [roller_target].
    replace (w - 1 + 1 <? w) with false by lia. reflexivity.
  - exists it, it'. split; [exact H1|]. split; auto.
    unfold against in H2. cbn [flat_map] in H2. rewrite app_nil_r in H2. exact H2.
Qed.

(** A loop that only works to the right, directed. *)
Lemma roller_half_dir : forall (N E : Type) w h
  (g : LatticeGraph Cell DirectedSquareAxis DirectedSquareAxis N E) nf ef y,
  fits w h -> 0 <= y < h -> 1 <= w ->
  Built Release (roller_dir Around Wall w h) (contract_geometry (roller_dir Around Wall w h)
    [DX; DY; DRX; DRY] (fun d => d) dsq_backward (fun x y => (x, y)) (roller_step Around Wall w h)
    usize_pair) g nf ef ->
  exists it, edges_directed Release g (w - 1, y) Incoming = Ok it /\
    edges_next Release g it = Fail FUB.
Proof.
  intros N E w h g nf ef y F Hy Hw HB.
  assert (Hb0 : on_board w h (0, y) = true) by (unfold on_board; cbn [fst snd]; lia).
  assert (Hb1 : on_board w h (w - 1, y) = true) by (unfold on_board; cbn [fst snd]; lia).
  destruct (ow_sources_ub (roller_dir_one_way Release Around Wall w h F) dsq_backward
    (fun _ => eq_refl) eq_refl eq_refl g nf ef HB (w - 1, y)) with
    (l1 := @nil DirectedSquareAxis) (a := DX) (l2 := [DY; DRX; DRY]) (c' := (0, y))
    as (it & it' & H1 & H2 & H3); auto.
  - apply on_board_in. exact Hb1.
  - unfold roller_step. rewrite Hb1. cbn [roller_target].
    replace (w - 1 + 1 <? w) with false by lia. reflexivity.
  - cbn [dsq_backward]. unfold roller_step. rewrite Hb0. reflexivity.
  - exists it. split; auto. unfold sources in H2. cbn [flat_map] in H2.
    inversion H2; subst. exact H3.
Qed.

Lemma askew_has_weight : forall c a,
  has_weight sq_fwd dsq_backward (roller_step Askew Around 3 2) c a.
Proof.
  intros [x y] a c' H. pose proof (roller_stay _ _ _ _ _ _ _ H) as Hin.
  apply on_board_in in Hin. unfold roller_step in *. rewrite Hin.
  destruct (on_board 3 2 (x, y)) eqn:Hb; [|discriminate].
  unfold on_board in *. cbn [fst snd] in *. destruct c' as [x' y'].
  destruct a; cbn [sq_fwd dsq_backward roller_target] in *; split_ifs; try discriminate.
  injection H as <- <-. lia.
Qed.
