(** * Store: the containers of the dependencies (ndarray, fixedbitset, Vec).

    These types live outside /repo; the definitions below record the contracts of
    ndarray 0.15 and fixedbitset 0.5 that the code relies on. *)

From Verif Require Import Machine.

(** ** Replacing an element of a list *)

Fixpoint list_set {A} (l : list A) (i : nat) (x : A) : list A :=
  match l, i with
  | [], _ => []
  | _ :: l', O => x :: l'
  | y :: l', S i' => y :: list_set l' i' x
  end.

(** ** ndarray's [Array2], standard (row major) layout *)

Record Array2 (A : Type) := mkArray2 {
  nrows : Z;
  ncols : Z;
  cells : list A
}.
Arguments mkArray2 {A}.
Arguments nrows {A}.
Arguments ncols {A}.
Arguments cells {A}.

(** ndarray refuses (by a panic) shapes for which the product of the non-zero axis
    lengths exceeds [isize::MAX]. *)
Definition alloc_ok (h v : Z) : bool :=
  (Z.max 1 h * Z.max 1 v <? IMAX1).

(** [Array2::uninit((h, v))]: every slot uninitialised. *)
Definition array_uninit {A} (h v : Z) : outcome (Array2 (option A)) :=
  if alloc_ok h v
  then Ok (mkArray2 h v (repeat None (Z.to_nat (h * v))))
  else Fail FPanic.

(** [Array2::from_shape_vec((h, v), data).expect(..)]: panics when the length is
    wrong or the shape too large. *)
Definition array_from_vec {A} (h v : Z) (data : list A) : outcome (Array2 A) :=
  if alloc_ok h v && (Z.of_nat (length data) =? h * v)
  then Ok (mkArray2 h v data)
  else Fail FPanic.

(** Bounds check and row major position. *)
Definition in_bounds {A} (a : Array2 A) (r c : Z) : bool :=
  (0 <=? r) && (r <? nrows a) && (0 <=? c) && (c <? ncols a).

Definition flat_index {A} (a : Array2 A) (r c : Z) : nat := Z.to_nat (r * ncols a + c).

(** [Array2::get((r, c))]. *)
Definition array_get {A} (a : Array2 A) (r c : Z) : option A :=
  if in_bounds a r c then nth_error (cells a) (flat_index a r c) else None.

(** [Array2::get_mut((r, c))] followed by a write of [x]; [None] if out of bounds. *)
Definition array_set {A} (a : Array2 A) (r c : Z) (x : A) : option (Array2 A) :=
  if in_bounds a r c
  then Some (mkArray2 (nrows a) (ncols a) (list_set (cells a) (flat_index a r c) x))
  else None.

(** [Array2::uget((r, c))]: unchecked; its bounds are a debug assertion, out of
    bounds it is undefined behaviour in release. *)
Definition array_uget {A} (m : mode) (a : Array2 A) (r c : Z) : outcome A :=
  match array_get a r c with
  | Some x => Ok x
  | None => unreachable_debug_checked m
  end.

(** Reading a value through a reference to a slot: an uninitialised slot is undefined
    behaviour.  (Of a zero-sized type, whose slots have no bytes, it would not be; graphs with
    such edge weights are treated by [zero_sized] in More.v.) *)
Definition read_slot {A} (x : option A) : outcome A :=
  match x with Some a => Ok a | None => Fail FUB end.

(** ** fixedbitset's [FixedBitSet] of fixed length *)

Definition FixedBitSet := list bool.

(** [FixedBitSet::with_capacity(n)] (n >= 0). *)
Definition bits_new (n : Z) : FixedBitSet := repeat false (Z.to_nat n).

(** [contains(i)]: false outside. *)
Definition bits_contains (b : FixedBitSet) (i : Z) : bool :=
  if 0 <=? i then nth (Z.to_nat i) b false else false.

(** [put(i)]: sets the bit and returns the previous value; panics outside. *)
Definition bits_put (b : FixedBitSet) (i : Z) : outcome (bool * FixedBitSet) :=
  if (0 <=? i) && (i <? Z.of_nat (length b))
  then Ok (nth (Z.to_nat i) b false, list_set b (Z.to_nat i) true)
  else Fail FPanic.

(** [set(i, x)]; panics outside. *)
Definition bits_set (b : FixedBitSet) (i : Z) (x : bool) : outcome FixedBitSet :=
  if (0 <=? i) && (i <? Z.of_nat (length b))
  then Ok (list_set b (Z.to_nat i) x)
  else Fail FPanic.

(** [clear()]. *)
Definition bits_clear (b : FixedBitSet) : FixedBitSet := repeat false (length b).

(** [Vec] indexing [v[i]]: panics outside. *)
Definition vec_index {A} (l : list A) (i : Z) : outcome A :=
  if (0 <=? i)
  then match nth_error l (Z.to_nat i) with Some x => Ok x | None => Fail FPanic end
  else Fail FPanic.
