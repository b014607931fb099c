(** * Axes: the [Axis] and [AxisDirection] traits and their eight implementations.

    Axis and direction indices are small numbers; they are modelled by [nat]. *)

From Verif Require Import Machine.

(** src/lattice_abstract/shapes.rs:254-276 trait [AxisDirection] (the non deprecated
    methods). *)
Record DirOps (D : Type) := {
  dir_to_index : D -> nat;
  dir_from_index_unchecked : mode -> nat -> outcome D;
  dir_from_index : nat -> option D;
  dir_is_forward : D -> bool           (* deprecated [is_forward] *)
}.
Arguments dir_to_index {D}.
Arguments dir_from_index_unchecked {D}.
Arguments dir_from_index {D}.
Arguments dir_is_forward {D}.

(** src/lattice_abstract/shapes.rs:211-251 trait [Axis].  [ax_dir] is the
    [AxisDirection] implementation of the associated type [Direction]. *)
Record AxisOps (A D : Type) := {
  ax_COUNT : nat;
  ax_DIRECTED : bool;
  ax_UNDIRECTED_COUNT : nat;
  ax_to_index : A -> nat;
  ax_from_index : nat -> option A;
  ax_from_index_unchecked : mode -> nat -> outcome A;
  ax_foward : mode -> A -> outcome D;
  ax_backward : mode -> A -> outcome D;
  ax_from_direction : mode -> D -> outcome A;
  ax_is_forward_direction : mode -> D -> outcome bool;
  ax_dir : DirOps D
}.
Arguments ax_COUNT {A D}.
Arguments ax_DIRECTED {A D}.
Arguments ax_UNDIRECTED_COUNT {A D}.
Arguments ax_to_index {A D}.
Arguments ax_from_index {A D}.
Arguments ax_from_index_unchecked {A D}.
Arguments ax_foward {A D}.
Arguments ax_backward {A D}.
Arguments ax_from_direction {A D}.
Arguments ax_is_forward_direction {A D}.
Arguments ax_dir {A D}.

(** ** Default methods *)

(** shapes.rs:218-222 default of [UNDIRECTED_COUNT] (also spelled out in
    square.rs:29-33, 322-326, 388-392). *)
Definition default_undirected_count (count : nat) (directed : bool) : nat :=
  if directed then count else (count * 2)%nat.

(** shapes.rs:233-235 default of [from_index_unchecked]. *)
Definition default_from_index_unchecked {A} (from_index : nat -> option A)
  (m : mode) (i : nat) : outcome A :=
  match from_index i with Some a => Ok a | None => unreachable_debug_checked m end.

(** shapes.rs:246-248 default of [is_forward_direction]. *)
Definition default_is_forward_direction {A D} (directed : bool) (to_index : A -> nat)
  (from_direction : mode -> D -> outcome A) (dir_to_index : D -> nat)
  (m : mode) (d : D) : outcome bool :=
  if directed then Ok true
  else let! a := from_direction m d in
       Ok (Nat.eqb (dir_to_index d) (to_index a)).

(** shapes.rs:278-298 blanket [AxisDirection] for a directed axis. *)
Definition dir_of_axis {A} (to_index : A -> nat)
  (from_index_unchecked : mode -> nat -> outcome A)
  (from_index : nat -> option A) : DirOps A := {|
  dir_to_index := to_index;
  dir_from_index_unchecked := from_index_unchecked;
  dir_from_index := from_index;
  dir_is_forward := fun _ => true
|}.

(** ** Deprecated generic direction [Direction<T>], shapes.rs:300-342 *)

Inductive GDirection (T : Type) := GFoward (t : T) | GBackward (t : T).
Arguments GFoward {T}.
Arguments GBackward {T}.

(** shapes.rs:309-342.  [index - T::COUNT] is only evaluated when [index >= COUNT]. *)
Definition gdirection_ops {T D} (ax : AxisOps T D) : DirOps (GDirection T) := {|
  dir_to_index d := match d with
    | GFoward x => ax_to_index ax x
    | GBackward x => (ax_to_index ax x + ax_COUNT ax)%nat
    end;
  dir_from_index_unchecked m i :=
    if Nat.ltb i (ax_COUNT ax)
    then let! x := ax_from_index_unchecked ax m i in Ok (GFoward x)
    else let! x := ax_from_index_unchecked ax m (i - ax_COUNT ax)%nat in Ok (GBackward x);
  dir_from_index i :=
    if Nat.ltb i (ax_COUNT ax)
    then match ax_from_index_unchecked ax Release i with
         | Ok x => Some (GFoward x) | Fail _ => None end
    else option_map GBackward (ax_from_index ax (i - ax_COUNT ax)%nat);
  dir_is_forward d := match d with GFoward _ => true | GBackward _ => false end
|}.

(** ** Square axes *)

(** src/lattice_abstract/square.rs:214-225 *)
Inductive DirectedSquareAxis := DX | DY | DRX | DRY.

(** square.rs:232-240 *)
Definition dsq_to_index (d : DirectedSquareAxis) : nat :=
  match d with DX => 0 | DY => 1 | DRX => 2 | DRY => 3 end.

(** square.rs:242-251 *)
Definition dsq_from_index (i : nat) : option DirectedSquareAxis :=
  match i with
  | 0 => Some DX | 1 => Some DY | 2 => Some DRX | 3 => Some DRY | _ => None
  end%nat.

Definition dsq_from_index_unchecked := default_from_index_unchecked dsq_from_index.

(** square.rs:258-266 *)
Definition dsq_backward (d : DirectedSquareAxis) : DirectedSquareAxis :=
  match d with DX => DRX | DY => DRY | DRX => DX | DRY => DY end.

Definition dsq_dir : DirOps DirectedSquareAxis :=
  dir_of_axis dsq_to_index dsq_from_index_unchecked dsq_from_index.

(** square.rs:227-272 *)
Definition dsq_axis : AxisOps DirectedSquareAxis DirectedSquareAxis := {|
  ax_COUNT := 4;
  ax_DIRECTED := true;
  ax_UNDIRECTED_COUNT := default_undirected_count 4 true;
  ax_to_index := dsq_to_index;
  ax_from_index := dsq_from_index;
  ax_from_index_unchecked := dsq_from_index_unchecked;
  ax_foward := fun _ d => Ok d;
  ax_backward := fun _ d => Ok (dsq_backward d);
  ax_from_direction := fun _ d => Ok d;
  ax_is_forward_direction :=
    default_is_forward_direction true dsq_to_index (fun _ d => Ok d) dsq_to_index;
  ax_dir := dsq_dir
|}.

(** square.rs:18-23 *)
Inductive SquareAxis := SX | SY.

(** square.rs:35-41 *)
Definition sq_to_index (a : SquareAxis) : nat := match a with SX => 0 | SY => 1 end.

(** square.rs:52-62 *)
Definition sq_from_index (i : nat) : option SquareAxis :=
  match i with 0 => Some SX | 1 => Some SY | _ => None end%nat.

(** square.rs:43-50: [unreachable_unchecked] on other indices. *)
Definition sq_from_index_unchecked (_ : mode) (i : nat) : outcome SquareAxis :=
  match i with 0 => Ok SX | 1 => Ok SY | _ => unreachable_unchecked end%nat.

(** square.rs:80-88 *)
Definition sq_from_direction (_ : mode) (d : DirectedSquareAxis) : outcome SquareAxis :=
  match d with DX | DRX => Ok SX | DY | DRY => Ok SY end.

(** square.rs:25-89 *)
Definition sq_axis : AxisOps SquareAxis DirectedSquareAxis := {|
  ax_COUNT := 2;
  ax_DIRECTED := false;
  ax_UNDIRECTED_COUNT := default_undirected_count 2 false;
  ax_to_index := sq_to_index;
  ax_from_index := sq_from_index;
  ax_from_index_unchecked := sq_from_index_unchecked;
  ax_foward := fun _ a => Ok (match a with SX => DX | SY => DY end);
  ax_backward := fun _ a => Ok (match a with SX => DRX | SY => DRY end);
  ax_from_direction := sq_from_direction;
  ax_is_forward_direction :=
    default_is_forward_direction false sq_to_index sq_from_direction dsq_to_index;
  ax_dir := dsq_dir
|}.

(** ** Diagonal axes *)

(** square.rs:372-383 *)
Inductive DirectedSquareDiagonalAxis :=
  | DN | DNE | DE | DSE | DS | DSW | DW | DNW.

(** square.rs:395-407 *)
Definition ddg_to_index (d : DirectedSquareDiagonalAxis) : nat :=
  match d with
  | DN => 0 | DNE => 1 | DE => 2 | DSE => 3 | DS => 4 | DSW => 5 | DW => 6 | DNW => 7
  end.

(** square.rs:424-437 *)
Definition ddg_from_index (i : nat) : option DirectedSquareDiagonalAxis :=
  match i with
  | 0 => Some DN | 1 => Some DNE | 2 => Some DE | 3 => Some DSE
  | 4 => Some DS | 5 => Some DSW | 6 => Some DW | 7 => Some DNW
  | _ => None
  end%nat.

(** square.rs:409-422 *)
Definition ddg_from_index_unchecked (_ : mode) (i : nat) : outcome DirectedSquareDiagonalAxis :=
  match i with
  | 0 => Ok DN | 1 => Ok DNE | 2 => Ok DE | 3 => Ok DSE
  | 4 => Ok DS | 5 => Ok DSW | 6 => Ok DW | 7 => Ok DNW
  | _ => unreachable_unchecked
  end%nat.

(** square.rs:444-448.  [i - 4] is evaluated only when [i >= 4]. *)
Definition ddg_backward (m : mode) (d : DirectedSquareDiagonalAxis)
  : outcome DirectedSquareDiagonalAxis :=
  let i := ddg_to_index d in
  ddg_from_index_unchecked m (if Nat.ltb i 4 then i + 4 else i - 4)%nat.

Definition ddg_dir : DirOps DirectedSquareDiagonalAxis :=
  dir_of_axis ddg_to_index ddg_from_index_unchecked ddg_from_index.

(** square.rs:385-454 *)
Definition ddg_axis : AxisOps DirectedSquareDiagonalAxis DirectedSquareDiagonalAxis := {|
  ax_COUNT := 8;
  ax_DIRECTED := true;
  ax_UNDIRECTED_COUNT := default_undirected_count 8 true;
  ax_to_index := ddg_to_index;
  ax_from_index := ddg_from_index;
  ax_from_index_unchecked := ddg_from_index_unchecked;
  ax_foward := fun _ d => Ok d;
  ax_backward := ddg_backward;
  ax_from_direction := fun _ d => Ok d;
  ax_is_forward_direction :=
    default_is_forward_direction true ddg_to_index (fun _ d => Ok d) ddg_to_index;
  ax_dir := ddg_dir
|}.

(** square.rs:310-317 *)
Inductive SquareDiagonalAxis := GN | GNE | GE | GSE.

(** square.rs:329-337 *)
Definition dg_to_index (a : SquareDiagonalAxis) : nat :=
  match a with GN => 0 | GNE => 1 | GE => 2 | GSE => 3 end.

(** square.rs:339-351 *)
Definition dg_from_index (i : nat) : option SquareDiagonalAxis :=
  match i with
  | 0 => Some GN | 1 => Some GNE | 2 => Some GE | 3 => Some GSE | _ => None
  end%nat.

Definition dg_from_index_unchecked := default_from_index_unchecked dg_from_index.

(** square.rs:363-369.  [i - 4] is evaluated only when [i >= 4]. *)
Definition dg_from_direction (m : mode) (d : DirectedSquareDiagonalAxis)
  : outcome SquareDiagonalAxis :=
  let i := ddg_to_index d in
  dg_from_index_unchecked m (if Nat.ltb i 4 then i else i - 4)%nat.

(** square.rs:319-370 *)
Definition dg_axis : AxisOps SquareDiagonalAxis DirectedSquareDiagonalAxis := {|
  ax_COUNT := 4;
  ax_DIRECTED := false;
  ax_UNDIRECTED_COUNT := default_undirected_count 4 false;
  ax_to_index := dg_to_index;
  ax_from_index := dg_from_index;
  ax_from_index_unchecked := dg_from_index_unchecked;
  ax_foward := fun m a => ddg_from_index_unchecked m (dg_to_index a);
  ax_backward := fun m a => ddg_from_index_unchecked m (dg_to_index a + 4)%nat;
  ax_from_direction := dg_from_direction;
  ax_is_forward_direction :=
    default_is_forward_direction false dg_to_index dg_from_direction ddg_to_index;
  ax_dir := ddg_dir
|}.

(** ** Hex axes, point top *)

(** src/hex/shapes/mod.rs:67-76 *)
Inductive AxisDR := RNE | RE | RSE | RSW | RW | RNW.

(** hex/shapes/mod.rs:83-92 *)
Definition dr_to_index (d : AxisDR) : nat :=
  match d with RNE => 0 | RE => 1 | RSE => 2 | RSW => 3 | RW => 4 | RNW => 5 end.

(** hex/shapes/mod.rs:94-107 *)
Definition dr_from_index (i : nat) : option AxisDR :=
  match i with
  | 0 => Some RNE | 1 => Some RE | 2 => Some RSE
  | 3 => Some RSW | 4 => Some RW | 5 => Some RNW
  | _ => None
  end%nat.

(** hex/shapes/mod.rs:109-119 *)
Definition dr_from_index_unchecked (m : mode) (i : nat) : outcome AxisDR :=
  match i with
  | 0 => Ok RNE | 1 => Ok RE | 2 => Ok RSE
  | 3 => Ok RSW | 4 => Ok RW | 5 => Ok RNW
  | _ => unreachable_debug_checked m
  end%nat.

(** hex/shapes/mod.rs:125-134 *)
Definition dr_backward (d : AxisDR) : AxisDR :=
  match d with
  | RNE => RSW | RE => RW | RSE => RNW | RSW => RNE | RW => RE | RNW => RSE
  end.

Definition dr_dir : DirOps AxisDR :=
  dir_of_axis dr_to_index dr_from_index_unchecked dr_from_index.

(** hex/shapes/mod.rs:78-139 *)
Definition dr_axis : AxisOps AxisDR AxisDR := {|
  ax_COUNT := 6;
  ax_DIRECTED := true;
  ax_UNDIRECTED_COUNT := default_undirected_count 6 true;
  ax_to_index := dr_to_index;
  ax_from_index := dr_from_index;
  ax_from_index_unchecked := dr_from_index_unchecked;
  ax_foward := fun _ d => Ok d;
  ax_backward := fun _ d => Ok (dr_backward d);
  ax_from_direction := fun _ d => Ok d;
  ax_is_forward_direction :=
    default_is_forward_direction true dr_to_index (fun _ d => Ok d) dr_to_index;
  ax_dir := dr_dir
|}.

(** hex/shapes/mod.rs:7-13 *)
Inductive AxisR := ANE | AE | ASE.

(** hex/shapes/mod.rs:20-26 *)
Definition r_to_index (a : AxisR) : nat := match a with ANE => 0 | AE => 1 | ASE => 2 end.

(** hex/shapes/mod.rs:28-38 *)
Definition r_from_index (i : nat) : option AxisR :=
  match i with 0 => Some ANE | 1 => Some AE | 2 => Some ASE | _ => None end%nat.

(** hex/shapes/mod.rs:40-47 *)
Definition r_from_index_unchecked (m : mode) (i : nat) : outcome AxisR :=
  match i with
  | 0 => Ok ANE | 1 => Ok AE | 2 => Ok ASE | _ => unreachable_debug_checked m
  end%nat.

(** hex/shapes/mod.rs:57-60 *)
Definition r_from_direction (m : mode) (d : AxisDR) : outcome AxisR :=
  let i := dr_to_index d in
  r_from_index_unchecked m (if Nat.leb 3 i then i - 3 else i)%nat.

(** hex/shapes/mod.rs:15-65 *)
Definition r_axis : AxisOps AxisR AxisDR := {|
  ax_COUNT := 3;
  ax_DIRECTED := false;
  ax_UNDIRECTED_COUNT := default_undirected_count 3 false;
  ax_to_index := r_to_index;
  ax_from_index := r_from_index;
  ax_from_index_unchecked := r_from_index_unchecked;
  ax_foward := fun m a => dr_from_index_unchecked m (r_to_index a);
  ax_backward := fun m a => dr_from_index_unchecked m (r_to_index a + 3)%nat;
  ax_from_direction := r_from_direction;
  ax_is_forward_direction := fun _ d => Ok (Nat.ltb (dr_to_index d) 3);
  ax_dir := dr_dir
|}.

(** ** Hex axes, flat top *)

(** hex/shapes/mod.rs:201-210 *)
Inductive AxisDQ := QN | QNE | QSE | QS | QSW | QNW.

(** hex/shapes/mod.rs:217-226 *)
Definition dq_to_index (d : AxisDQ) : nat :=
  match d with QN => 0 | QNE => 1 | QSE => 2 | QS => 3 | QSW => 4 | QNW => 5 end.

(** hex/shapes/mod.rs:228-241 *)
Definition dq_from_index (i : nat) : option AxisDQ :=
  match i with
  | 0 => Some QN | 1 => Some QNE | 2 => Some QSE
  | 3 => Some QS | 4 => Some QSW | 5 => Some QNW
  | _ => None
  end%nat.

(** hex/shapes/mod.rs:243-253 *)
Definition dq_from_index_unchecked (m : mode) (i : nat) : outcome AxisDQ :=
  match i with
  | 0 => Ok QN | 1 => Ok QNE | 2 => Ok QSE
  | 3 => Ok QS | 4 => Ok QSW | 5 => Ok QNW
  | _ => unreachable_debug_checked m
  end%nat.

(** hex/shapes/mod.rs:259-268 *)
Definition dq_backward (d : AxisDQ) : AxisDQ :=
  match d with
  | QN => QS | QNE => QSW | QSE => QNW | QS => QN | QSW => QNE | QNW => QSE
  end.

Definition dq_dir : DirOps AxisDQ :=
  dir_of_axis dq_to_index dq_from_index_unchecked dq_from_index.

(** hex/shapes/mod.rs:212-273 *)
Definition dq_axis : AxisOps AxisDQ AxisDQ := {|
  ax_COUNT := 6;
  ax_DIRECTED := true;
  ax_UNDIRECTED_COUNT := default_undirected_count 6 true;
  ax_to_index := dq_to_index;
  ax_from_index := dq_from_index;
  ax_from_index_unchecked := dq_from_index_unchecked;
  ax_foward := fun _ d => Ok d;
  ax_backward := fun _ d => Ok (dq_backward d);
  ax_from_direction := fun _ d => Ok d;
  ax_is_forward_direction :=
    default_is_forward_direction true dq_to_index (fun _ d => Ok d) dq_to_index;
  ax_dir := dq_dir
|}.

(** hex/shapes/mod.rs:141-147 *)
Inductive AxisQ := BN | BNE | BSE.

(** hex/shapes/mod.rs:154-160 *)
Definition q_to_index (a : AxisQ) : nat := match a with BN => 0 | BNE => 1 | BSE => 2 end.

(** hex/shapes/mod.rs:162-172 *)
Definition q_from_index (i : nat) : option AxisQ :=
  match i with 0 => Some BN | 1 => Some BNE | 2 => Some BSE | _ => None end%nat.

(** hex/shapes/mod.rs:174-181 *)
Definition q_from_index_unchecked (m : mode) (i : nat) : outcome AxisQ :=
  match i with
  | 0 => Ok BN | 1 => Ok BNE | 2 => Ok BSE | _ => unreachable_debug_checked m
  end%nat.

(** hex/shapes/mod.rs:191-194 *)
Definition q_from_direction (m : mode) (d : AxisDQ) : outcome AxisQ :=
  let i := dq_to_index d in
  q_from_index_unchecked m (if Nat.ltb i 3 then i else i - 3)%nat.

(** hex/shapes/mod.rs:149-199 *)
Definition q_axis : AxisOps AxisQ AxisDQ := {|
  ax_COUNT := 3;
  ax_DIRECTED := false;
  ax_UNDIRECTED_COUNT := default_undirected_count 3 false;
  ax_to_index := q_to_index;
  ax_from_index := q_from_index;
  ax_from_index_unchecked := q_from_index_unchecked;
  ax_foward := fun m a => dq_from_index_unchecked m (q_to_index a);
  ax_backward := fun m a => dq_from_index_unchecked m (q_to_index a + 3)%nat;
  ax_from_direction := q_from_direction;
  ax_is_forward_direction := fun _ d => Ok (Nat.ltb (dq_to_index d) 3);
  ax_dir := dq_dir
|}.

(** ** hex2d direction conversions, src/hex/hex2d.rs:72-111.

    [hex2d::Direction] lives outside /repo; its variants and integer values
    ([to_int]/[from_int]) are those of hex2d 1.0, in the order in which
    hex2d.rs:79-84 lists them. *)
Inductive Hex2dDirection := HYZ | HXZ | HXY | HZY | HZX | HYX.

Definition hex2d_to_int (d : Hex2dDirection) : nat :=
  match d with HYZ => 0 | HXZ => 1 | HXY => 2 | HZY => 3 | HZX => 4 | HYX => 5 end.

(** [Direction::from_int] reduces its argument modulo 6. *)
Definition hex2d_from_int (i : nat) : Hex2dDirection :=
  match Nat.modulo i 6 with
  | 0 => HYZ | 1 => HXZ | 2 => HXY | 3 => HZY | 4 => HZX | _ => HYX
  end%nat.

(** [Coordinate + Direction] of hex2d: (dx, dy). *)
Definition hex2d_vec (d : Hex2dDirection) : Z * Z :=
  match d with
  | HYZ => (0, 1) | HXZ => (1, 0) | HXY => (1, -1)
  | HZY => (0, -1) | HZX => (-1, 0) | HYX => (-1, 1)
  end.

(** hex2d.rs:72-87 *)
Definition dr_of_hex2d (m : mode) (d : Hex2dDirection) : outcome AxisDR :=
  let i := hex2d_to_int d in
  let i := if Nat.eqb i 5 then 0%nat else (i + 1)%nat in
  let! _ := debug_assert m (Nat.leb i 5) in
  dr_from_index_unchecked m i.

(** hex2d.rs:89-95 *)
Definition dq_of_hex2d (m : mode) (d : Hex2dDirection) : outcome AxisDQ :=
  let i := hex2d_to_int d in
  let! _ := debug_assert m (Nat.leb i 5) in
  dq_from_index_unchecked m i.

(** hex2d.rs:97-104.  [i - 1] is evaluated only when [i <> 0]. *)
Definition hex2d_of_dr (m : mode) (d : AxisDR) : outcome Hex2dDirection :=
  let i := dr_to_index d in
  let i := if Nat.eqb i 0 then 5%nat else (i - 1)%nat in
  let! _ := debug_assert m (Nat.leb i 5) in
  Ok (hex2d_from_int i).

(** hex2d.rs:106-111 *)
Definition hex2d_of_dq (d : AxisDQ) : Hex2dDirection := hex2d_from_int (dq_to_index d).
