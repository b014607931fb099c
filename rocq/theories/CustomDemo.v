(** * CustomDemo: three shapes that are not in the crate, as a user might make them. *)

From Verif Require Import Machine Store Axes Shapes Lattice Spec Spec19 Basics GeoProofs
  ShapeProofs StoreProofs.
From Coq Require Import ZifyBool ZifyNat.

Definition on_board (w h : Z) (c : Cell) : bool :=
  (0 <=? fst c) && (fst c <? w) && (0 <=? snd c) && (snd c <? h).

Lemma on_board_in : forall w h c, on_board w h c = true <-> In c (board w h (fun x y => (x, y))).
Proof.
  intros w h [x y]. rewrite in_board. unfold on_board. cbn [fst snd]. split.
  - intros H. exists x, y. repeat split; lia.
  - intros (x' & y' & H1 & H2 & E). injection E as -> ->. lia.
Qed.

(** ** A square board that is looped in both directions *)

Definition torus_target (w h : Z) (c : Cell) (d : DirectedSquareAxis) : Cell :=
  let (x, y) := c in
  match d with
  | DX => (if x + 1 <? w then x + 1 else 0, y)
  | DY => (x, if y + 1 <? h then y + 1 else 0)
  | DRX => (if 1 <=? x then x - 1 else w - 1, y)
  | DRY => (x, if 1 <=? y then y - 1 else h - 1)
  end.
Definition torus_move (w h : Z) (m : mode) (c : Cell) (d : DirectedSquareAxis)
  : outcome (option Cell) := Ok (Some (torus_target w h c d)).

Definition torus (w h : Z) : Shape Cell SquareAxis DirectedSquareAxis := {|
  sh_axis := sq_axis;
  sh_eqb := pair_eqb;
  sh_horizontal := w;
  sh_vertical := h;
  sh_to_offset := range_check w h;
  sh_to_offset_unchecked := default_to_offset_unchecked (range_check w h);
  sh_offset_to_coordinate := fun _ o => Ok o;
  sh_horizontal_edge_size := fun _ _ => Ok w;
  sh_vertical_edge_size := fun _ _ => Ok h;
  sh_move_coord := torus_move w h;
  sh_move_coord_unchecked := default_move_coord_unchecked (torus_move w h);
  sh_is_neighbor := default_is_neighbor sq_axis pair_eqb (torus_move w h)
|}.

Definition sq_fwd (a : SquareAxis) : DirectedSquareAxis := match a with SX => DX | SY => DY end.
Definition torus_step (w h : Z) (c : Cell) (d : DirectedSquareAxis) : option Cell :=
  if on_board w h c then Some (torus_target w h c d) else None.
Definition usize_pair (c : Cell) : Prop := 0 <= fst c < 2 ^ 64 /\ 0 <= snd c < 2 ^ 64.

Ltac small_nth :=
  let i := fresh "i" in let x := fresh "x" in let H := fresh "H" in
  intros i x H; repeat (destruct i as [|i]; cbn in H; try discriminate H;
    try (injection H as <-; reflexivity)).

Lemma sq_contract : forall m, AxisContract m sq_axis [SX; SY] sq_fwd dsq_backward.
Proof.
  intros m. constructor.
  - reflexivity.
  - intros []; reflexivity.
  - intros [|[|[|i]]]; reflexivity.
  - small_nth.
  - small_nth.
  - reflexivity.
  - reflexivity.
  - intros []; reflexivity.
  - intros [|[|[|[|[|i]]]]]; reflexivity.
  - small_nth.
  - small_nth.
  - intros []; reflexivity.
  - intros []; reflexivity.
  - intros []; reflexivity.
  - intros []; discriminate.
  - intros []; reflexivity.
  - intros []; reflexivity.
  - intros _ []; reflexivity.
  - intros _ []; reflexivity.
Qed.

Lemma rect_cell : forall w h m x y, fits w h -> 0 <= x < w -> 0 <= y < h ->
  usize_pair (x, y) /\ range_check w h m (x, y) = Ok (Some (x, y)).
Proof.
  intros w h m x y F Hx Hy. pose proof (fits_bounds _ _ F) as B. rewrite IMAX1_val in B.
  unfold usize_pair, range_check. cbn [fst snd]. change (2 ^ 64) with 18446744073709551616.
  split; [lia|]. destruct (x <? w) eqn:E1, (y <? h) eqn:E2; cbn; auto; lia.
Qed.
Lemma rect_outside : forall w h m c, usize_pair c -> ~ In c (board w h (fun x y => (x, y))) ->
  range_check w h m c = Ok None.
Proof.
  intros w h m [x y] [H1 H2] Hn. rewrite <- on_board_in in Hn. unfold on_board in Hn.
  unfold range_check. cbn [fst snd] in *. destruct (x <? w) eqn:E1, (y <? h) eqn:E2; cbn; auto.
  exfalso. apply Hn. lia.
Qed.

Lemma torus_contract : forall m w h, fits w h ->
  ShapeContract m (torus w h) [SX; SY] sq_fwd dsq_backward (fun x y => (x, y)) (torus_step w h)
    usize_pair.
Proof.
  intros m w h F.
  assert (ST : forall c d c', torus_step w h c d = Some c' ->
    on_board w h c = true /\ c' = torus_target w h c d).
  { intros c d c'. unfold torus_step. destruct (on_board w h c); intros H; [|discriminate].
    injection H as <-. auto. }
  assert (STAY : forall c d, on_board w h c = true -> on_board w h (torus_target w h c d) = true).
  { intros [x y] d H. unfold on_board in *. unfold torus_target.
    destruct d; cbn [fst snd] in *;
      match goal with |- context [if ?b then _ else _] => destruct b eqn:? end; lia. }
  constructor; cbn [torus sh_axis sh_horizontal sh_vertical sh_eqb sh_to_offset
    sh_to_offset_unchecked sh_offset_to_coordinate sh_move_coord sh_move_coord_unchecked
    sh_is_neighbor].
  - apply sq_contract.
  - exact F.
  - apply pair_eqb_eq.
  - intros x y Hx Hy. destruct (rect_cell w h m x y F Hx Hy) as [H1 H2]. split; auto.
    unfold default_to_offset_unchecked. rewrite H2. auto.
  - intros c Hc Hn. apply rect_outside; auto.
  - intros c d Hc. apply on_board_in in Hc. unfold torus_step, torus_move. rewrite Hc. auto.
  - intros c d c' Hc Hs. apply ST in Hs. destruct Hs as [_ ->].
    apply default_move_coord_unchecked_ok. reflexivity.
  - intros c d c' Hs. apply ST in Hs. destruct Hs as [H ->]. apply on_board_in. auto.
  - intros c d c' Hc Hs. apply ST in Hs. destruct Hs as [H ->]. unfold torus_step.
    rewrite STAY by auto. f_equal. destruct c as [x y]. unfold on_board in H. cbn [fst snd] in H.
    destruct d; cbn [torus_target dsq_backward];
      repeat match goal with |- context [if ?b then _ else _] =>
        lazymatch b with context [if _ then _ else _] => fail | _ => destruct b eqn:? end end;
      apply pair_eq; lia.
  - reflexivity.
Qed.

(** The same with an edge for each direction. *)
Definition torus_dir (w h : Z) : Shape Cell DirectedSquareAxis DirectedSquareAxis := {|
  sh_axis := dsq_axis;
  sh_eqb := pair_eqb;
  sh_horizontal := w;
  sh_vertical := h;
  sh_to_offset := range_check w h;
  sh_to_offset_unchecked := default_to_offset_unchecked (range_check w h);
  sh_offset_to_coordinate := fun _ o => Ok o;
  sh_horizontal_edge_size := fun _ _ => Ok w;
  sh_vertical_edge_size := fun _ _ => Ok h;
  sh_move_coord := torus_move w h;
  sh_move_coord_unchecked := default_move_coord_unchecked (torus_move w h);
  sh_is_neighbor := default_is_neighbor dsq_axis pair_eqb (torus_move w h)
|}.

Lemma dsq_contract : forall m,
  AxisContract m dsq_axis [DX; DY; DRX; DRY] (fun d => d) dsq_backward.
Proof.
  intros m. constructor.
  - reflexivity.
  - intros []; reflexivity.
  - intros [|[|[|[|[|i]]]]]; reflexivity.
  - small_nth.
  - small_nth.
  - reflexivity.
  - reflexivity.
  - intros []; reflexivity.
  - intros [|[|[|[|[|i]]]]]; reflexivity.
  - small_nth.
  - small_nth.
  - intros []; reflexivity.
  - intros []; reflexivity.
  - intros []; reflexivity.
  - intros []; discriminate.
  - intros []; reflexivity.
  - intros []; reflexivity.
  - discriminate.
  - discriminate.
Qed.

Lemma torus_dir_contract : forall m w h, fits w h ->
  ShapeContract m (torus_dir w h) [DX; DY; DRX; DRY] (fun d => d) dsq_backward (fun x y => (x, y)) (torus_step w h)
    usize_pair.
Proof.
  intros m w h F.
  assert (ST : forall c d c', torus_step w h c d = Some c' ->
    on_board w h c = true /\ c' = torus_target w h c d).
  { intros c d c'. unfold torus_step. destruct (on_board w h c); intros H; [|discriminate].
    injection H as <-. auto. }
  assert (STAY : forall c d, on_board w h c = true -> on_board w h (torus_target w h c d) = true).
  { intros [x y] d H. unfold on_board in *. unfold torus_target.
    destruct d; cbn [fst snd] in *;
      match goal with |- context [if ?b then _ else _] => destruct b eqn:? end; lia. }
  constructor; cbn [torus_dir sh_axis sh_horizontal sh_vertical sh_eqb sh_to_offset
    sh_to_offset_unchecked sh_offset_to_coordinate sh_move_coord sh_move_coord_unchecked
    sh_is_neighbor].
  - apply dsq_contract.
  - exact F.
  - apply pair_eqb_eq.
  - intros x y Hx Hy. destruct (rect_cell w h m x y F Hx Hy) as [H1 H2]. split; auto.
    unfold default_to_offset_unchecked. rewrite H2. auto.
  - intros c Hc Hn. apply rect_outside; auto.
  - intros c d Hc. apply on_board_in in Hc. unfold torus_step, torus_move. rewrite Hc. auto.
  - intros c d c' Hc Hs. apply ST in Hs. destruct Hs as [_ ->].
    apply default_move_coord_unchecked_ok. reflexivity.
  - intros c d c' Hs. apply ST in Hs. destruct Hs as [H ->]. apply on_board_in. auto.
  - intros c d c' Hc Hs. apply ST in Hs. destruct Hs as [H ->]. unfold torus_step.
    rewrite STAY by auto. f_equal. destruct c as [x y]. unfold on_board in H. cbn [fst snd] in H.
    destruct d; cbn [torus_target dsq_backward];
      repeat match goal with |- context [if ?b then _ else _] =>
        lazymatch b with context [if _ then _ else _] => fail | _ => destruct b eqn:? end end;
      apply pair_eq; lia.
  - reflexivity.
Qed.

(** ** The moves of a knight on a chess board

    An axis type of the user's own with four axes, and the crate's deprecated [Direction<T>] for
    its directions. *)

Inductive Knight := NE1 | NE2 | SE2 | SE1.

Definition knight_to_index (a : Knight) : nat :=
  match a with NE1 => 0 | NE2 => 1 | SE2 => 2 | SE1 => 3 end.
Definition knight_from_index (i : nat) : option Knight :=
  match i with 0 => Some NE1 | 1 => Some NE2 | 2 => Some SE2 | 3 => Some SE1 | _ => None end%nat.
Definition knight_from_direction (_ : mode) (d : GDirection Knight) : outcome Knight :=
  match d with GFoward a | GBackward a => Ok a end.

(** What [gdirection_ops] asks of the axis type. *)
Definition knight_numbers : AxisOps Knight unit := {|
  ax_COUNT := 4;
  ax_DIRECTED := false;
  ax_UNDIRECTED_COUNT := default_undirected_count 4 false;
  ax_to_index := knight_to_index;
  ax_from_index := knight_from_index;
  ax_from_index_unchecked := default_from_index_unchecked knight_from_index;
  ax_foward := fun _ _ => Ok tt;
  ax_backward := fun _ _ => Ok tt;
  ax_from_direction := fun _ _ => Ok NE1;
  ax_is_forward_direction := fun _ _ => Ok true;
  ax_dir := {| dir_to_index := fun _ => O; dir_from_index_unchecked := fun _ _ => Ok tt;
               dir_from_index := fun _ => None; dir_is_forward := fun _ => true |}
|}.

Definition knight_axis : AxisOps Knight (GDirection Knight) := {|
  ax_COUNT := 4;
  ax_DIRECTED := false;
  ax_UNDIRECTED_COUNT := default_undirected_count 4 false;
  ax_to_index := knight_to_index;
  ax_from_index := knight_from_index;
  ax_from_index_unchecked := default_from_index_unchecked knight_from_index;
  ax_foward := fun _ a => Ok (GFoward a);
  ax_backward := fun _ a => Ok (GBackward a);
  ax_from_direction := knight_from_direction;
  ax_is_forward_direction := default_is_forward_direction false knight_to_index
    knight_from_direction (dir_to_index (gdirection_ops knight_numbers));
  ax_dir := gdirection_ops knight_numbers
|}.

Definition knight_vec (a : Knight) : Vec :=
  match a with NE1 => (1, 2) | NE2 => (2, 1) | SE2 => (2, -1) | SE1 => (1, -2) end.
Definition knight_target (c : Cell) (d : GDirection Knight) : Cell :=
  match d with GFoward a => vadd c (knight_vec a) | GBackward a => vadd c (vneg (knight_vec a)) end.
Definition knight_move (w h : Z) (m : mode) (c : Cell) (d : GDirection Knight)
  : outcome (option Cell) :=
  Ok (if on_board w h (knight_target c d) then Some (knight_target c d) else None).

Definition chess (w h : Z) : Shape Cell Knight (GDirection Knight) := {|
  sh_axis := knight_axis;
  sh_eqb := pair_eqb;
  sh_horizontal := w;
  sh_vertical := h;
  sh_to_offset := range_check w h;
  sh_to_offset_unchecked := default_to_offset_unchecked (range_check w h);
  sh_offset_to_coordinate := fun _ o => Ok o;
  sh_horizontal_edge_size := fun _ _ => Ok w;
  sh_vertical_edge_size := fun _ _ => Ok h;
  sh_move_coord := knight_move w h;
  sh_move_coord_unchecked := default_move_coord_unchecked (knight_move w h);
  sh_is_neighbor := default_is_neighbor knight_axis pair_eqb (knight_move w h)
|}.

Definition turn {T} (d : GDirection T) : GDirection T :=
  match d with GFoward a => GBackward a | GBackward a => GFoward a end.
Definition knight_step (w h : Z) (c : Cell) (d : GDirection Knight) : option Cell :=
  if on_board w h (knight_target c d) then Some (knight_target c d) else None.

Lemma knight_contract : forall m,
  AxisContract m knight_axis [NE1; NE2; SE2; SE1] GFoward turn.
Proof.
  intros m. constructor.
  - reflexivity.
  - intros []; reflexivity.
  - intros [|[|[|[|[|i]]]]]; reflexivity.
  - small_nth.
  - small_nth.
  - reflexivity.
  - reflexivity.
  - intros [[]|[]]; reflexivity.
  - intros [|[|[|[|[|[|[|[|[|i]]]]]]]]]; reflexivity.
  - small_nth.
  - small_nth.
  - intros []; reflexivity.
  - intros []; reflexivity.
  - intros []; reflexivity.
  - intros []; discriminate.
  - intros []; reflexivity.
  - intros []; reflexivity.
  - intros _ []; reflexivity.
  - intros _ []; reflexivity.
Qed.

Lemma chess_contract : forall m w h, fits w h ->
  ShapeContract m (chess w h) [NE1; NE2; SE2; SE1] GFoward turn (fun x y => (x, y))
    (knight_step w h) usize_pair.
Proof.
  intros m w h F.
  assert (ST : forall c d c', knight_step w h c d = Some c' ->
    on_board w h c' = true /\ c' = knight_target c d).
  { intros c d c'. unfold knight_step. destruct (on_board w h (knight_target c d)) eqn:E; intros H;
      [|discriminate]. injection H as <-. auto. }
  constructor; cbn [chess sh_axis sh_horizontal sh_vertical sh_eqb sh_to_offset
    sh_to_offset_unchecked sh_offset_to_coordinate sh_move_coord sh_move_coord_unchecked
    sh_is_neighbor].
  - apply knight_contract.
  - exact F.
  - apply pair_eqb_eq.
  - intros x y Hx Hy. destruct (rect_cell w h m x y F Hx Hy) as [H1 H2]. split; auto.
    unfold default_to_offset_unchecked. rewrite H2. auto.
  - intros c Hc Hn. apply rect_outside; auto.
  - reflexivity.
  - intros c d c' Hc Hs. apply default_move_coord_unchecked_ok. unfold knight_move.
    unfold knight_step in Hs. rewrite Hs. auto.
  - intros c d c' Hs. apply ST in Hs. destruct Hs as [H _]. apply on_board_in. auto.
  - intros c d c' Hc Hs. apply ST in Hs. destruct Hs as [H ->].
    assert (E : knight_target (knight_target c d) (turn d) = c).
    { destruct c as [x y]. destruct d as [[]|[]]; unfold knight_target, vadd, vneg; cbn [turn knight_vec fst snd];
        apply pair_eq; lia. }
    unfold knight_step. rewrite E. apply on_board_in in Hc. rewrite Hc. auto.
  - reflexivity.
Qed.
