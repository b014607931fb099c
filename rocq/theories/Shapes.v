(** * Shapes: the [Shape] trait and its implementations in the crate.

    Coordinates and offsets of every shape in the crate are pairs of machine
    integers, modelled by [Z * Z]:
    - [Offset], [SquareOffset], [HexOffset]: (horizontal, vertical), both [usize];
    - [HexAxial] and [hex2d::Coordinate]: (r, q), both [isize] (or narrower);
    - [DoubleCoord]: (h, v), both [usize].
    [Result<T, E>] with an error type without information is modelled by [option].
    The trait's [H]/[V] size types ([usize], [WrapUSIZE]) only deliver a [usize]. *)

From Verif Require Import Machine Axes.

(** Sequencing of [Option]/[Result]-returning calls. *)
Definition bindo {A B} (x : outcome (option A)) (k : A -> outcome (option B))
  : outcome (option B) :=
  let! y := x in match y with Some a => k a | None => Ok None end.

Notation "'let?' x ':=' e 'in' k" := (bindo e (fun x => k))
  (at level 200, x pattern, e at level 100, k at level 200).

(** ** [Offset], src/lattice_abstract/shapes.rs:347-415 *)

Definition Offset : Type := (Z * Z)%type.
(** shapes.rs:363-365, 367-369 *)
Definition o_horizontal (o : Offset) : Z := fst o.
Definition o_vertical (o : Offset) : Z := snd o.

(** shapes.rs:371-373 *)
Definition add_x (m : mode) (o : Offset) (x : Z) : outcome Offset :=
  let! h := usize_add m (fst o) x in Ok (h, snd o).
(** shapes.rs:375-377 *)
Definition add_y (m : mode) (o : Offset) (y : Z) : outcome Offset :=
  let! v := usize_add m (snd o) y in Ok (fst o, v).
(** shapes.rs:379-381 *)
Definition set_x (o : Offset) (x : Z) : Offset := (x, snd o).
(** shapes.rs:386-388 *)
Definition sub_x (o : Offset) (x : Z) : option Offset :=
  match checked_sub (fst o) x with Some h => Some (h, snd o) | None => None end.
(** shapes.rs:390-392 *)
Definition sub_y (o : Offset) (y : Z) : option Offset :=
  match checked_sub (snd o) y with Some v => Some (fst o, v) | None => None end.
(** shapes.rs:400-406 *)
Definition check_x (o : Offset) (x_max : Z) : option Offset :=
  if fst o <? x_max then Some o else None.
(** shapes.rs:408-414 *)
Definition check_y (o : Offset) (y_max : Z) : option Offset :=
  if snd o <? y_max then Some o else None.

(** [o.add_x(1).check_x(h)] and [o.add_y(1).check_y(v)] as used below. *)
Definition add_check_x (m : mode) (o : Offset) (h : Z) : outcome (option Offset) :=
  let! o' := add_x m o 1 in Ok (check_x o' h).
Definition add_check_y (m : mode) (o : Offset) (v : Z) : outcome (option Offset) :=
  let! o' := add_y m o 1 in Ok (check_y o' v).

(** Derived [PartialEq] of the coordinate types. *)
Definition pair_eqb (a b : Z * Z) : bool := (fst a =? fst b) && (snd a =? snd b).

(** ** The [Shape] trait, src/lattice_abstract/shapes.rs:10-126 *)

Record Shape (C A D : Type) := {
  sh_axis : AxisOps A D;
  sh_eqb : C -> C -> bool;              (* PartialEq of the coordinate *)
  sh_horizontal : Z;
  sh_vertical : Z;
  sh_to_offset : mode -> C -> outcome (option Offset);
  sh_to_offset_unchecked : mode -> C -> outcome Offset;
  sh_offset_to_coordinate : mode -> Offset -> outcome C;
  sh_horizontal_edge_size : mode -> A -> outcome Z;   (* deprecated *)
  sh_vertical_edge_size : mode -> A -> outcome Z;     (* deprecated *)
  sh_move_coord : mode -> C -> D -> outcome (option C);
  sh_move_coord_unchecked : mode -> C -> D -> outcome C;
  sh_is_neighbor : mode -> C -> C -> outcome bool
}.
Arguments sh_axis {C A D}.
Arguments sh_eqb {C A D}.
Arguments sh_horizontal {C A D}.
Arguments sh_vertical {C A D}.
Arguments sh_to_offset {C A D}.
Arguments sh_to_offset_unchecked {C A D}.
Arguments sh_offset_to_coordinate {C A D}.
Arguments sh_horizontal_edge_size {C A D}.
Arguments sh_vertical_edge_size {C A D}.
Arguments sh_move_coord {C A D}.
Arguments sh_move_coord_unchecked {C A D}.
Arguments sh_is_neighbor {C A D}.

(** *** Default methods which implementations may override *)

(** shapes.rs:39-42 default [to_offset_unchecked]. *)
Definition default_to_offset_unchecked {C} (to_offset : mode -> C -> outcome (option Offset))
  (m : mode) (c : C) : outcome Offset :=
  let! o := to_offset m c in
  match o with Some o => Ok o | None => unreachable_debug_checked m end.

(** shapes.rs:94-101 default [move_coord_unchecked]. *)
Definition default_move_coord_unchecked {C D} (move_coord : mode -> C -> D -> outcome (option C))
  (m : mode) (c : C) (d : D) : outcome C :=
  let! c' := move_coord m c d in
  match c' with Some c' => Ok c' | None => unreachable_debug_checked m end.

(** shapes.rs:108-125 the loop of [get_direction], from index [i] on with [n] rounds
    left. *)
Fixpoint get_direction_from {C A D} (ax : AxisOps A D) (eqb : C -> C -> bool)
  (move_coord : mode -> C -> D -> outcome (option C))
  (m : mode) (a b : C) (n i : nat) : outcome (option D) :=
  match n with
  | O => Ok None
  | S n' =>
      let! d := dir_from_index_unchecked (ax_dir ax) m i in
      let! c := move_coord m a d in
      match c with
      | Some c =>
          if eqb c b then Ok (Some d)
          else get_direction_from ax eqb move_coord m a b n' (S i)
      | None => get_direction_from ax eqb move_coord m a b n' (S i)
      end
  end.

(** shapes.rs:108-125 (no implementation overrides it). *)
Definition default_get_direction {C A D} (ax : AxisOps A D) (eqb : C -> C -> bool)
  (move_coord : mode -> C -> D -> outcome (option C)) (m : mode) (a b : C)
  : outcome (option D) :=
  get_direction_from ax eqb move_coord m a b (ax_UNDIRECTED_COUNT ax) 0.

(** shapes.rs:103-106 default [is_neighbor]. *)
Definition default_is_neighbor {C A D} (ax : AxisOps A D) (eqb : C -> C -> bool)
  (move_coord : mode -> C -> D -> outcome (option C)) (m : mode) (a b : C)
  : outcome bool :=
  let! d := default_get_direction ax eqb move_coord m a b in
  Ok (match d with Some _ => true | None => false end).

(** *** Methods no implementation overrides *)

Section ShapeMethods.
  Context {C A D : Type} (s : Shape C A D).

  (** shapes.rs:26-29 *)
  Definition sh_node_count (m : mode) : outcome Z :=
    usize_mul m (sh_horizontal s) (sh_vertical s).

  (** shapes.rs:57-62 *)
  Definition sh_index_to_offset (index : Z) : outcome Offset :=
    let! v := usize_rem index (sh_vertical s) in
    let! h := usize_div index (sh_vertical s) in
    Ok (h, v).

  (** shapes.rs:64-67 *)
  Definition sh_offset_to_index (m : mode) (o : Offset) : outcome Z :=
    let! x := usize_mul m (fst o) (sh_vertical s) in
    usize_add m x (snd o).

  (** shapes.rs:46-50 *)
  Definition sh_index_to_coordinate (m : mode) (index : Z) : outcome C :=
    let! o := sh_index_to_offset index in
    sh_offset_to_coordinate s m o.

  (** shapes.rs:51-55 *)
  Definition sh_to_index (m : mode) (c : C) : outcome (option Z) :=
    let! o := sh_to_offset s m c in
    match o with
    | Some o => let! i := sh_offset_to_index m o in Ok (Some i)
    | None => Ok None
    end.

  (** shapes.rs:108-125 *)
  Definition sh_get_direction (m : mode) (a b : C) : outcome (option D) :=
    default_get_direction (sh_axis s) (sh_eqb s) (sh_move_coord s) m a b.
End ShapeMethods.

(** shapes.rs:128-209 [impl Shape for &S]: forwards every method except the two
    deprecated edge sizes, which are the trait's defaults (shapes.rs:69-78). *)
Definition shape_ref {C A D} (s : Shape C A D) : Shape C A D := {|
  sh_axis := sh_axis s;
  sh_eqb := sh_eqb s;
  sh_horizontal := sh_horizontal s;
  sh_vertical := sh_vertical s;
  sh_to_offset := sh_to_offset s;
  sh_to_offset_unchecked := sh_to_offset_unchecked s;
  sh_offset_to_coordinate := sh_offset_to_coordinate s;
  sh_horizontal_edge_size := fun _ _ => Ok (sh_horizontal s);
  sh_vertical_edge_size := fun _ _ => Ok (sh_vertical s);
  sh_move_coord := sh_move_coord s;
  sh_move_coord_unchecked := sh_move_coord_unchecked s;
  sh_is_neighbor := sh_is_neighbor s
|}.

(** ** Square shapes, src/lattice_abstract/square.rs *)

(** square.rs:135-142 [range_check]; the same text in square.rs:493-499, 559-565 and
    src/hex/offset_based/shapes.rs:346-353, 399-406. *)
Definition range_check (h v : Z) (_ : mode) (c : Z * Z) : outcome (option Offset) :=
  Ok (if (fst c <? h) && (snd c <? v) then Some c else None).

(** square.rs:144-157 *)
Definition square_move_coord (h v : Z) (m : mode) (c : Z * Z) (d : DirectedSquareAxis)
  : outcome (option (Z * Z)) :=
  match d with
  | DX => add_check_x m c h
  | DY => add_check_y m c v
  | DRX => Ok (sub_x c 1)
  | DRY => Ok (sub_y c 1)
  end.

(** square.rs:159-212 [SquareShape<Undirected>] *)
Definition square_shape (h v : Z) : Shape (Z * Z) SquareAxis DirectedSquareAxis := {|
  sh_axis := sq_axis;
  sh_eqb := pair_eqb;
  sh_horizontal := h;
  sh_vertical := v;
  sh_to_offset := range_check h v;
  sh_to_offset_unchecked := fun _ c => Ok c;
  sh_offset_to_coordinate := fun _ o => Ok o;
  sh_horizontal_edge_size := fun m a =>
    match a with SX => usize_sub m h 1 | SY => Ok h end;
  sh_vertical_edge_size := fun m a =>
    match a with SX => Ok v | SY => usize_sub m v 1 end;
  sh_move_coord := square_move_coord h v;
  sh_move_coord_unchecked := default_move_coord_unchecked (square_move_coord h v);
  sh_is_neighbor := default_is_neighbor sq_axis pair_eqb (square_move_coord h v)
|}.

(** square.rs:274-308 [SquareShape<Directed>] *)
Definition square_dir_shape (h v : Z)
  : Shape (Z * Z) DirectedSquareAxis DirectedSquareAxis := {|
  sh_axis := dsq_axis;
  sh_eqb := pair_eqb;
  sh_horizontal := h;
  sh_vertical := v;
  sh_to_offset := range_check h v;
  sh_to_offset_unchecked := default_to_offset_unchecked (range_check h v);
  sh_offset_to_coordinate := fun _ o => Ok o;
  sh_horizontal_edge_size := fun _ _ => Ok h;
  sh_vertical_edge_size := fun _ _ => Ok v;
  sh_move_coord := square_move_coord h v;
  sh_move_coord_unchecked := default_move_coord_unchecked (square_move_coord h v);
  sh_is_neighbor := default_is_neighbor dsq_axis pair_eqb (square_move_coord h v)
|}.

(** square.rs:511-539 (undirected) and 577-605 (directed): the same text. *)
Definition diagonal_move_coord (h v : Z) (m : mode) (c : Z * Z)
  (d : DirectedSquareDiagonalAxis) : outcome (option (Z * Z)) :=
  match d with
  | DN => add_check_y m c v
  | DNE => let? o := add_check_x m c h in add_check_y m o v
  | DE => add_check_x m c h
  | DSE => let? o := add_check_x m c h in Ok (sub_y o 1)
  | DS => Ok (sub_y c 1)
  | DSW => let? o := Ok (sub_x c 1) in Ok (sub_y o 1)
  | DW => Ok (sub_x c 1)
  | DNW => let? o := Ok (sub_x c 1) in add_check_y m o v
  end.

(** square.rs:476-540 [SquareDiagonalShape<Undirected>] *)
Definition diagonal_shape (h v : Z)
  : Shape (Z * Z) SquareDiagonalAxis DirectedSquareDiagonalAxis := {|
  sh_axis := dg_axis;
  sh_eqb := pair_eqb;
  sh_horizontal := h;
  sh_vertical := v;
  sh_to_offset := range_check h v;
  sh_to_offset_unchecked := fun _ c => Ok c;
  sh_offset_to_coordinate := fun _ o => Ok o;
  sh_horizontal_edge_size := fun _ _ => Ok h;
  sh_vertical_edge_size := fun _ _ => Ok v;
  sh_move_coord := diagonal_move_coord h v;
  sh_move_coord_unchecked := default_move_coord_unchecked (diagonal_move_coord h v);
  sh_is_neighbor := default_is_neighbor dg_axis pair_eqb (diagonal_move_coord h v)
|}.

(** square.rs:542-606 [SquareDiagonalShape<Directed>] *)
Definition diagonal_dir_shape (h v : Z)
  : Shape (Z * Z) DirectedSquareDiagonalAxis DirectedSquareDiagonalAxis := {|
  sh_axis := ddg_axis;
  sh_eqb := pair_eqb;
  sh_horizontal := h;
  sh_vertical := v;
  sh_to_offset := range_check h v;
  sh_to_offset_unchecked := fun _ c => Ok c;
  sh_offset_to_coordinate := fun _ o => Ok o;
  sh_horizontal_edge_size := fun _ _ => Ok h;
  sh_vertical_edge_size := fun _ _ => Ok v;
  sh_move_coord := diagonal_move_coord h v;
  sh_move_coord_unchecked := default_move_coord_unchecked (diagonal_move_coord h v);
  sh_is_neighbor := default_is_neighbor ddg_axis pair_eqb (diagonal_move_coord h v)
|}.

(** ** Hex bases, src/hex/shapes/mod.rs:275-323, 337-346

    [DirectedMarker<T>] (337-346) takes over both constants of [T], so it is not a
    separate case here: a directed shape is the shape below with the direction type
    as its axis type. *)
Inductive HexR := OddR | EvenR.
Inductive HexQ := OddQ | EvenQ.

(** [OE::IS_EVEN] and [OE::CONVERT_OFFSET], mod.rs:275-279 and 288-323. *)
Definition r_is_even (b : HexR) : bool := match b with OddR => false | EvenR => true end.
Definition q_is_even (b : HexQ) : bool := match b with OddQ => false | EvenQ => true end.
Definition convert_offset (is_even : bool) : Z := if is_even then 1 else 0.
(** [RQ::IS_FLAT_TOP], mod.rs:291-293, 301-303, 311-313, 321-323. *)
Definition r_is_flat_top (b : HexR) : bool := match b with OddR => false | EvenR => false end.
Definition q_is_flat_top (b : HexQ) : bool := match b with OddQ => false | EvenQ => false end.

(** ** Hex shapes with offset coordinates, src/hex/offset_based/shapes.rs *)

(** The test [o.vertical() & 1 == flag]; [x & 1] is [x mod 2]. *)
Definition parity_is (o : Offset) (flag : Z) : bool := snd o mod 2 =? flag.

(** offset_based/shapes.rs:101-124 *)
Definition offset_move_r (h v : Z) (flag : Z) (m : mode) (o : Z * Z) (d : AxisDR)
  : outcome (option (Z * Z)) :=
  match d, parity_is o flag with
  | RE, _ => add_check_x m o h
  | RW, _ => Ok (sub_x o 1)
  | RNE, true | RNW, false => add_check_y m o v
  | RSE, true | RSW, false => Ok (sub_y o 1)
  | RNE, false => let? o := add_check_x m o h in add_check_y m o v
  | RSE, false => let? o := add_check_x m o h in Ok (sub_y o 1)
  | RSW, true => let? o := Ok (sub_x o 1) in Ok (sub_y o 1)
  | RNW, true => let? o := Ok (sub_x o 1) in add_check_y m o v
  end.

(** [o.add_x(1).check_x(horizontal).unwrap_or_else(|| o.set_x(0))] *)
Definition wrap_add_x (m : mode) (o : Offset) (h : Z) : outcome Offset :=
  let! o' := add_check_x m o h in
  match o' with Some o' => Ok o' | None => Ok (set_x o 0) end.

(** [o.sub_x(1).unwrap_or_else(|| o.set_x(horizontal - 1))] *)
Definition wrap_sub_x (m : mode) (o : Offset) (h : Z) : outcome Offset :=
  match sub_x o 1 with
  | Some o' => Ok o'
  | None => let! x := usize_sub m h 1 in Ok (set_x o x)
  end.

(** offset_based/shapes.rs:126-162 *)
Definition offset_move_r_lew (h v : Z) (flag : Z) (m : mode) (o : Z * Z) (d : AxisDR)
  : outcome (option (Z * Z)) :=
  match d, parity_is o flag with
  | RE, _ => let! o := wrap_add_x m o h in Ok (Some o)
  | RW, _ => let! o := wrap_sub_x m o h in Ok (Some o)
  | RNE, true | RNW, false => add_check_y m o v
  | RSE, true | RSW, false => Ok (sub_y o 1)
  | RNE, false => let! o := wrap_add_x m o h in add_check_y m o v
  | RSE, false => let! o := wrap_add_x m o h in Ok (sub_y o 1)
  | RSW, true => let! o := wrap_sub_x m o h in Ok (sub_y o 1)
  | RNW, true => let! o := wrap_sub_x m o h in add_check_y m o v
  end.

(** offset_based/shapes.rs:230-250 *)
Definition offset_move_q (h v : Z) (flag : Z) (m : mode) (o : Z * Z) (d : AxisDQ)
  : outcome (option (Z * Z)) :=
  match d, negb (parity_is o flag) with
  | QN, _ => add_check_y m o v
  | QS, _ => Ok (sub_y o 1)
  | QNE, true | QNW, false => add_check_x m o h
  | QSE, true | QSW, false => Ok (sub_x o 1)
  | QNE, false => let! o := add_y m o 1 in add_check_x m o h
  | QSE, false => let! o := add_y m o 1 in
                  let? o := Ok (sub_x o 1) in Ok (check_y o v)
  | QSW, true => let? o := Ok (sub_y o 1) in Ok (sub_x o 1)
  | QNW, true => let? o := Ok (sub_y o 1) in add_check_x m o h
  end.

(** offset_based/shapes.rs:252-288 *)
Definition offset_move_q_lew (h v : Z) (flag : Z) (m : mode) (o : Z * Z) (d : AxisDQ)
  : outcome (option (Z * Z)) :=
  match d, negb (parity_is o flag) with
  | QN, _ => let! o := wrap_add_x m o h in Ok (Some o)
  | QS, _ => let! o := wrap_sub_x m o h in Ok (Some o)
  | QNE, true | QNW, false => add_check_x m o h
  | QSE, true | QSW, false => Ok (sub_x o 1)
  | QNE, false => let! o := wrap_add_x m o h in add_check_y m o v
  | QSE, false => let! o := wrap_add_x m o h in Ok (sub_y o 1)
  | QSW, true => let! o := wrap_sub_x m o h in Ok (sub_y o 1)
  | QNW, true => let! o := wrap_sub_x m o h in add_check_y m o v
  end.

(** The last argument passed to the move functions: offset_based/shapes.rs:62, 73, 86,
    97 (R) and 173, 184, 197, 208 (Q). *)
Definition r_flag (b : HexR) : Z := match b with OddR => 0 | EvenR => 1 end.
Definition q_flag (b : HexQ) : Z := match b with OddQ => 0 | EvenQ => 1 end.

(** offset_based/shapes.rs:327-378 (without loop) and 380-431 (loop E-W): the two
    [impl]s differ only in the move function. *)
Definition offset_shape {A D} (ax : AxisOps A D)
  (mv : mode -> Z * Z -> D -> outcome (option (Z * Z))) (h v : Z) : Shape (Z * Z) A D := {|
  sh_axis := ax;
  sh_eqb := pair_eqb;
  sh_horizontal := h;
  sh_vertical := v;
  sh_to_offset := range_check h v;
  sh_to_offset_unchecked := fun _ c => Ok c;
  sh_offset_to_coordinate := fun _ o => Ok o;
  sh_horizontal_edge_size := fun _ _ => Ok h;
  sh_vertical_edge_size := fun _ _ => Ok v;
  sh_move_coord := mv;
  sh_move_coord_unchecked := default_move_coord_unchecked mv;
  sh_is_neighbor := default_is_neighbor ax pair_eqb mv
|}.

(** [HexOffsetShape<OddR | EvenR, ()>], [HexOffsetShape<DirectedMarker<..>, ()>]
    (offset_based/shapes.rs:212-228), [HexOffsetShape<.., LoopEW>].  [DirectedMarker]
    does not implement [HexOffsetShapeBaseLoopEW], so there is no directed loop. *)
Definition hex_offset_r (b : HexR) (h v : Z) : Shape (Z * Z) AxisR AxisDR :=
  offset_shape r_axis (offset_move_r h v (r_flag b)) h v.
Definition hex_offset_r_dir (b : HexR) (h v : Z) : Shape (Z * Z) AxisDR AxisDR :=
  offset_shape dr_axis (offset_move_r h v (r_flag b)) h v.
Definition hex_offset_r_lew (b : HexR) (h v : Z) : Shape (Z * Z) AxisR AxisDR :=
  offset_shape r_axis (offset_move_r_lew h v (r_flag b)) h v.
Definition hex_offset_q (b : HexQ) (h v : Z) : Shape (Z * Z) AxisQ AxisDQ :=
  offset_shape q_axis (offset_move_q h v (q_flag b)) h v.
Definition hex_offset_q_dir (b : HexQ) (h v : Z) : Shape (Z * Z) AxisDQ AxisDQ :=
  offset_shape dq_axis (offset_move_q h v (q_flag b)) h v.
Definition hex_offset_q_lew (b : HexQ) (h v : Z) : Shape (Z * Z) AxisQ AxisDQ :=
  offset_shape q_axis (offset_move_q_lew h v (q_flag b)) h v.

(** ** Hex shapes with axial coordinates, src/hex/axial_based/shapes.rs *)

(** The trait [AxialCoord] (axial_based/shapes.rs:10-17).  [HAxial] is [HexAxial]
    (26-61), whose [new] takes any two [isize].  [Hex2d lo hi] is
    [hex2d::Coordinate<I>] for a signed integer type [I] with values [lo..=hi]
    (src/hex/hex2d.rs:27-46): [new] goes through [I::from_isize] and is
    [unreachable_debug_checked] outside the type's range; [r] and [q] read the
    components ([to_isize] succeeds for every signed type of at most 64 bits). *)
Inductive AxialKind := HAxial | Hex2d (lo hi : Z).

Definition ha_new (k : AxialKind) (m : mode) (r q : Z) : outcome (Z * Z) :=
  match k with
  | HAxial => Ok (r, q)
  | Hex2d lo hi =>
      if (lo <=? r) && (r <=? hi) && (lo <=? q) && (q <=? hi) then Ok (r, q)
      else unreachable_debug_checked m
  end.

(** axial_based/shapes.rs:114-123 *)
Definition axial_move_r (k : AxialKind) (m : mode) (c : Z * Z) (d : AxisDR)
  : outcome (Z * Z) :=
  let (r, q) := c in
  match d with
  | RNE => let! q := isize_add m q 1 in ha_new k m r q
  | RE => let! r := isize_add m r 1 in ha_new k m r q
  | RSE => let! r := isize_add m r 1 in let! q := isize_sub m q 1 in ha_new k m r q
  | RSW => let! q := isize_sub m q 1 in ha_new k m r q
  | RW => let! r := isize_sub m r 1 in ha_new k m r q
  | RNW => let! r := isize_sub m r 1 in let! q := isize_add m q 1 in ha_new k m r q
  end.

(** axial_based/shapes.rs:125-134 *)
Definition axial_move_q (k : AxialKind) (m : mode) (c : Z * Z) (d : AxisDQ)
  : outcome (Z * Z) :=
  let (r, q) := c in
  match d with
  | QN => let! q := isize_add m q 1 in ha_new k m r q
  | QNE => let! r := isize_add m r 1 in ha_new k m r q
  | QSE => let! r := isize_add m r 1 in let! q := isize_sub m q 1 in ha_new k m r q
  | QS => let! q := isize_sub m q 1 in ha_new k m r q
  | QSW => let! r := isize_sub m r 1 in ha_new k m r q
  | QNW => let! r := isize_sub m r 1 in let! q := isize_add m q 1 in ha_new k m r q
  end.

(** The shift [((x as usize + B::CONVERT_OFFSET) / 2) as isize]. *)
Definition axial_shift (m : mode) (co x : Z) : outcome Z :=
  let! y := usize_add m x co in Ok (as_isize (y / 2)).

(** axial_based/shapes.rs:206-224 *)
Definition axial_to_offset (flat : bool) (co h v : Z) (m : mode) (c : Z * Z)
  : outcome (option Offset) :=
  let (r, q) := c in
  if flat then
    if as_usize r <? h then
      let! s := axial_shift m co (as_usize r) in
      let! v' := isize_add m q s in
      if as_usize v' <? v then Ok (Some (as_usize r, as_usize v')) else Ok None
    else Ok None
  else
    if as_usize q <? v then
      let! s := axial_shift m co (as_usize q) in
      let! h' := isize_add m r s in
      if as_usize h' <? h then Ok (Some (as_usize h', as_usize q)) else Ok None
    else Ok None.

(** axial_based/shapes.rs:226-234 *)
Definition axial_to_offset_unchecked (flat : bool) (co : Z) (m : mode) (c : Z * Z)
  : outcome Offset :=
  let (r, q) := c in
  if flat then
    let! s := axial_shift m co (as_usize r) in
    let! v' := isize_add m q s in
    Ok (as_usize r, as_usize v')
  else
    let! s := axial_shift m co (as_usize q) in
    let! h' := isize_add m r s in
    Ok (as_usize h', as_usize q).

(** axial_based/shapes.rs:236-250 *)
Definition axial_offset_to_coordinate (k : AxialKind) (flat : bool) (co : Z) (m : mode)
  (o : Offset) : outcome (Z * Z) :=
  if flat then
    let! s := axial_shift m co (fst o) in
    let! q := isize_sub m (as_isize (snd o)) s in
    ha_new k m (as_isize (fst o)) q
  else
    let! s := axial_shift m co (snd o) in
    let! r := isize_sub m (as_isize (fst o)) s in
    ha_new k m r (as_isize (snd o)).

(** axial_based/shapes.rs:260-271; [mv] is the base's [move_coord_unchecked]. *)
Definition axial_move_coord {D} (mv : mode -> Z * Z -> D -> outcome (Z * Z))
  (flat : bool) (co h v : Z) (m : mode) (c : Z * Z) (d : D) : outcome (option (Z * Z)) :=
  let! c' := mv m c d in
  let! o := axial_to_offset flat co h v m c' in
  Ok (match o with Some _ => Some c' | None => None end).

(** axial_based/shapes.rs:325-351.  The two loops of 338-348 are [wrap_up] and
    [wrap_down]. *)
Definition wrap_up (m : mode) (h min : Z) (r : Z) : outcome Z :=
  loop (fun r => let! r' := isize_add m r h in
                 Ok (if r' <? min then inl r' else inr r')) r.
Definition wrap_down (m : mode) (h max : Z) (r : Z) : outcome Z :=
  loop (fun r => if max <=? r
                 then let! r' := isize_sub m r h in Ok (inl r')
                 else Ok (inr r)) r.

Definition axial_move_coord_lew {D} (k : AxialKind)
  (mv : mode -> Z * Z -> D -> outcome (Z * Z))
  (co h v : Z) (m : mode) (c : Z * Z) (d : D) : outcome (option (Z * Z)) :=
  let! c' := mv m c d in
  let q := snd c' in
  if v <=? as_usize q then Ok None
  else
    let! q2 := isize_add m q co in
    let! min := isize_neg m (isize_half q2) in
    let h := as_isize h in
    let r := fst c' in
    let! r :=
      if r <? min then wrap_up m h min r
      else let! max := isize_sub m h min in wrap_down m h max r in
    let! c2 := ha_new k m r q in
    Ok (Some c2).

(** axial_based/shapes.rs:186-280 *)
Definition axial_shape {A D} (ax : AxisOps A D) (k : AxialKind)
  (mv : mode -> Z * Z -> D -> outcome (Z * Z)) (flat even : bool) (h v : Z)
  : Shape (Z * Z) A D :=
  let co := convert_offset even in {|
  sh_axis := ax;
  sh_eqb := pair_eqb;
  sh_horizontal := h;
  sh_vertical := v;
  sh_to_offset := axial_to_offset flat co h v;
  sh_to_offset_unchecked := axial_to_offset_unchecked flat co;
  sh_offset_to_coordinate := axial_offset_to_coordinate k flat co;
  sh_horizontal_edge_size := fun _ _ => Ok h;
  sh_vertical_edge_size := fun _ _ => Ok v;
  sh_move_coord := axial_move_coord mv flat co h v;
  sh_move_coord_unchecked := mv;
  sh_is_neighbor := default_is_neighbor ax pair_eqb (axial_move_coord mv flat co h v)
|}.

(** axial_based/shapes.rs:282-352: the conversions are those of the shape without
    loop ([convert::<()>], 158-171). *)
Definition axial_lew_shape {A D} (ax : AxisOps A D) (k : AxialKind)
  (mv : mode -> Z * Z -> D -> outcome (Z * Z)) (flat even : bool) (h v : Z)
  : Shape (Z * Z) A D :=
  let co := convert_offset even in {|
  sh_axis := ax;
  sh_eqb := pair_eqb;
  sh_horizontal := h;
  sh_vertical := v;
  sh_to_offset := axial_to_offset flat co h v;
  sh_to_offset_unchecked := axial_to_offset_unchecked flat co;
  sh_offset_to_coordinate := axial_offset_to_coordinate k flat co;
  sh_horizontal_edge_size := fun _ _ => Ok h;
  sh_vertical_edge_size := fun _ _ => Ok v;
  sh_move_coord := axial_move_coord_lew k mv co h v;
  sh_move_coord_unchecked :=
    default_move_coord_unchecked (axial_move_coord_lew k mv co h v);
  sh_is_neighbor := default_is_neighbor ax pair_eqb (axial_move_coord_lew k mv co h v)
|}.

(** The instances: axial_based/shapes.rs:69-112. *)
Definition hex_axial_r (k : AxialKind) (b : HexR) (h v : Z) : Shape (Z * Z) AxisR AxisDR :=
  axial_shape r_axis k (axial_move_r k) (r_is_flat_top b) (r_is_even b) h v.
Definition hex_axial_r_dir (k : AxialKind) (b : HexR) (h v : Z)
  : Shape (Z * Z) AxisDR AxisDR :=
  axial_shape dr_axis k (axial_move_r k) (r_is_flat_top b) (r_is_even b) h v.
Definition hex_axial_r_lew (k : AxialKind) (b : HexR) (h v : Z)
  : Shape (Z * Z) AxisR AxisDR :=
  axial_lew_shape r_axis k (axial_move_r k) (r_is_flat_top b) (r_is_even b) h v.
Definition hex_axial_r_dir_lew (k : AxialKind) (b : HexR) (h v : Z)
  : Shape (Z * Z) AxisDR AxisDR :=
  axial_lew_shape dr_axis k (axial_move_r k) (r_is_flat_top b) (r_is_even b) h v.
Definition hex_axial_q (k : AxialKind) (b : HexQ) (h v : Z) : Shape (Z * Z) AxisQ AxisDQ :=
  axial_shape q_axis k (axial_move_q k) (q_is_flat_top b) (q_is_even b) h v.
Definition hex_axial_q_dir (k : AxialKind) (b : HexQ) (h v : Z)
  : Shape (Z * Z) AxisDQ AxisDQ :=
  axial_shape dq_axis k (axial_move_q k) (q_is_flat_top b) (q_is_even b) h v.
Definition hex_axial_q_lew (k : AxialKind) (b : HexQ) (h v : Z)
  : Shape (Z * Z) AxisQ AxisDQ :=
  axial_lew_shape q_axis k (axial_move_q k) (q_is_flat_top b) (q_is_even b) h v.
Definition hex_axial_q_dir_lew (k : AxialKind) (b : HexQ) (h v : Z)
  : Shape (Z * Z) AxisDQ AxisDQ :=
  axial_lew_shape dq_axis k (axial_move_q k) (q_is_flat_top b) (q_is_even b) h v.

(** ** Double coordinates, src/hex/double_coord/shapes.rs *)

(** double_coord/shapes.rs:70-140.  Each step is in the order of the source: the
    addition (which may overflow), then the check, then the other component. *)
Definition double_move_r (h_max v_max : Z) (m : mode) (c : Z * Z) (d : AxisDR)
  : outcome (option (Z * Z)) :=
  let (h, v) := c in
  match d with
  | RNE =>
      let! h := usize_add m h 1 in
      if h_max <=? h then Ok None else
      let! v := usize_add m v 1 in
      if v_max <=? v then Ok None else Ok (Some (h, v))
  | RE =>
      let! h := usize_add m h 2 in
      if h_max <=? h then Ok None else Ok (Some (h, v))
  | RSE =>
      let! h := usize_add m h 1 in
      if h_max <=? h then Ok None else
      match checked_sub v 1 with
      | Some v => Ok (Some (h, v)) | None => Ok None end
  | RSW =>
      match checked_sub h 1 with
      | Some h =>
          match checked_sub v 1 with
          | Some v => Ok (Some (h, v)) | None => Ok None end
      | None => Ok None end
  | RW =>
      match checked_sub h 2 with
      | Some h => Ok (Some (h, v)) | None => Ok None end
  | RNW =>
      match checked_sub h 1 with
      | Some h =>
          let! v := usize_add m v 1 in
          if v_max <=? v then Ok None else Ok (Some (h, v))
      | None => Ok None end
  end.

(** double_coord/shapes.rs:142-212.  Used only by [OddQ]'s [DoubleCoordShapeBase],
    for which no [Shape] implementation exists. *)
Definition double_move_q (h_max v_max : Z) (m : mode) (c : Z * Z) (d : AxisDQ)
  : outcome (option (Z * Z)) :=
  let (h, v) := c in
  match d with
  | QN =>
      let! v := usize_add m v 2 in
      if v_max <=? v then Ok None else Ok (Some (h, v))
  | QNE =>
      let! h := usize_add m h 1 in
      if h_max <=? h then Ok None else
      let! v := usize_add m v 1 in
      if v_max <=? v then Ok None else Ok (Some (h, v))
  | QSE =>
      let! h := usize_add m h 1 in
      if h_max <=? h then Ok None else
      match checked_sub v 1 with
      | Some v => Ok (Some (h, v)) | None => Ok None end
  | QS =>
      match checked_sub v 2 with
      | Some v => Ok (Some (h, v)) | None => Ok None end
  | QSW =>
      match checked_sub h 1 with
      | Some h =>
          match checked_sub v 1 with
          | Some v => Ok (Some (h, v)) | None => Ok None end
      | None => Ok None end
  | QNW =>
      match checked_sub h 1 with
      | Some h =>
          let! v := usize_add m v 1 in
          if v_max <=? v then Ok None else Ok (Some (h, v))
      | None => Ok None end
  end.

(** double_coord/shapes.rs:279-287 *)
Definition double_to_offset (h v : Z) (_ : mode) (c : Z * Z) : outcome (option Offset) :=
  Ok (if (fst c / 2 <? h) && (snd c <? v) then Some (fst c / 2, snd c) else None).

(** double_coord/shapes.rs:295-299; [v & 1] is [v mod 2]. *)
Definition double_offset_to_coordinate (m : mode) (o : Offset) : outcome (Z * Z) :=
  let! x := usize_mul m (fst o) 2 in
  let! h := usize_add m x (snd o mod 2) in
  Ok (h, snd o).

(** double_coord/shapes.rs:309-322 *)
Definition double_is_neighbor (m : mode) (a b : Z * Z) : outcome bool :=
  let dif_v := abs_diff (snd a) (snd b) in
  if 1 <? dif_v then Ok false
  else
    let dif_h := abs_diff (fst a) (fst b) in
    let! x := usize_add m dif_h dif_v in
    Ok (x =? 2).

(** double_coord/shapes.rs:257-323 [DoubleCoordShape<OddR, ()>] (the only base with
    [Axis = AxisR]). *)
Definition double_shape (h v : Z) : Shape (Z * Z) AxisR AxisDR := {|
  sh_axis := r_axis;
  sh_eqb := pair_eqb;
  sh_horizontal := h;
  sh_vertical := v;
  sh_to_offset := double_to_offset h v;
  sh_to_offset_unchecked := fun _ c => Ok (fst c / 2, snd c);
  sh_offset_to_coordinate := double_offset_to_coordinate;
  sh_horizontal_edge_size := fun _ _ => Ok h;
  sh_vertical_edge_size := fun _ _ => Ok v;
  sh_move_coord := double_move_r h v;
  sh_move_coord_unchecked := default_move_coord_unchecked (double_move_r h v);
  sh_is_neighbor := double_is_neighbor
|}.
