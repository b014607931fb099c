(** * Machine: outcomes, build modes, machine integers, loops, iterators.

    This file models the parts of the Rust language and of [core] on which the
    code in /repo relies.  Nothing in it is specific to lattice-graph except
    [unreachable_debug_checked]. *)

From Coq Require Export ZArith List Bool Lia.
Export ListNotations.
Open Scope Z_scope.

(** ** Outcomes *)

(** Ways in which a call can go wrong.  [FPanic]: the thread panics.
    [FUB]: undefined behaviour (a violated [unsafe] contract, or a use of an
    uninitialised slot).  [FDiverge]: a loop does not end within 2^72 rounds. *)
Inductive fault := FPanic | FUB | FDiverge.

Inductive outcome (A : Type) : Type :=
| Ok (a : A)
| Fail (f : fault).
Arguments Ok {A} a.
Arguments Fail {A} f.

Definition bind {A B} (x : outcome A) (k : A -> outcome B) : outcome B :=
  match x with Ok a => k a | Fail f => Fail f end.

Notation "'let!' x ':=' e 'in' k" := (bind e (fun x => k))
  (at level 200, x pattern, e at level 100, k at level 200).

(** Build mode.  [Debug] = debug assertions and overflow checks on (cargo's dev
    profile), [Release] = both off (cargo's release profile). *)
Inductive mode := Debug | Release.

(** src/lib.rs:33-40 [unreachable_debug_checked]: [unreachable!()] (a panic) with
    debug assertions, [unreachable_unchecked()] (undefined behaviour) without. *)
Definition unreachable_debug_checked {A} (m : mode) : outcome A :=
  match m with Debug => Fail FPanic | Release => Fail FUB end.

(** [core::hint::unreachable_unchecked]: undefined behaviour in every mode. *)
Definition unreachable_unchecked {A} : outcome A := Fail FUB.

(** [Option::unwrap]. *)
Definition unwrap {A} (x : option A) : outcome A :=
  match x with Some a => Ok a | None => Fail FPanic end.

(** [Option::unwrap_unchecked]. *)
Definition unwrap_unchecked {A} (x : option A) : outcome A :=
  match x with Some a => Ok a | None => Fail FUB end.

(** [debug_assert!(b)]. *)
Definition debug_assert (m : mode) (b : bool) : outcome unit :=
  match m with
  | Debug => if b then Ok tt else Fail FPanic
  | Release => Ok tt
  end.

(** ** Machine integers.  [usize] values are integers in [0, 2^64), [isize] values
    integers in [-2^63, 2^63).  (64-bit target.) *)

Definition USIZE : Z := 2 ^ 64.
Definition IMAX1 : Z := 2 ^ 63. (* isize::MAX + 1 *)

Definition is_usize (x : Z) : Prop := 0 <= x < USIZE.
Definition is_isize (x : Z) : Prop := - IMAX1 <= x < IMAX1.

(** Result [x] of a [usize] operation: panics on overflow in [Debug], wraps in
    [Release]. *)
Definition wrap_usize (m : mode) (x : Z) : outcome Z :=
  if (0 <=? x) && (x <? USIZE) then Ok x
  else match m with Debug => Fail FPanic | Release => Ok (x mod USIZE) end.

Definition usize_add (m : mode) (x y : Z) : outcome Z := wrap_usize m (x + y).
Definition usize_sub (m : mode) (x y : Z) : outcome Z := wrap_usize m (x - y).
Definition usize_mul (m : mode) (x y : Z) : outcome Z := wrap_usize m (x * y).
(** [/] and [%] on [usize] panic on a zero divisor in every mode. *)
Definition usize_div (x y : Z) : outcome Z := if y =? 0 then Fail FPanic else Ok (x / y).
Definition usize_rem (x y : Z) : outcome Z := if y =? 0 then Fail FPanic else Ok (x mod y).
(** [usize::checked_sub]. *)
Definition checked_sub (x y : Z) : option Z := if y <=? x then Some (x - y) else None.
(** [usize::abs_diff]. *)
Definition abs_diff (x y : Z) : Z := Z.abs (x - y).

(** [x as usize] for [x : isize], and [x as isize] for [x : usize]. *)
Definition as_usize (x : Z) : Z := x mod USIZE.
Definition as_isize (x : Z) : Z := if x <? IMAX1 then x else x - USIZE.

(** Result of an [isize] operation. *)
Definition wrap_isize (m : mode) (x : Z) : outcome Z :=
  if (- IMAX1 <=? x) && (x <? IMAX1) then Ok x
  else match m with
       | Debug => Fail FPanic
       | Release => Ok (as_isize (x mod USIZE))
       end.

Definition isize_add (m : mode) (x y : Z) : outcome Z := wrap_isize m (x + y).
Definition isize_sub (m : mode) (x y : Z) : outcome Z := wrap_isize m (x - y).
Definition isize_neg (m : mode) (x : Z) : outcome Z := wrap_isize m (- x).
(** [x / 2] on [isize] truncates towards zero and cannot overflow. *)
Definition isize_half (x : Z) : Z := Z.quot x 2.

(** ** Loops.  [loop body s] runs [body] until it answers [inr r] ("leave the loop
    with r"); [inl s'] means "next round in state s'".  The fuel is 2^72 rounds (more than
    any search on a board that can be allocated takes), in
    binary, so that the loop still computes. *)

Fixpoint iter_loop {S R} (body : S -> outcome (S + R)) (p : positive) (s : S)
  : outcome (S + R) :=
  match p with
  | xH => body s
  | xO q =>
      match iter_loop body q s with
      | Ok (inl s') => iter_loop body q s'
      | r => r
      end
  | xI q =>
      match body s with
      | Ok (inl s') =>
          match iter_loop body q s' with
          | Ok (inl s'') => iter_loop body q s''
          | r => r
          end
      | r => r
      end
  end.

Definition loop {S R} (body : S -> outcome (S + R)) (s : S) : outcome R :=
  match iter_loop body (2 ^ 72)%positive s with
  | Ok (inr r) => Ok r
  | Ok (inl _) => Fail FDiverge
  | Fail f => Fail f
  end.

(** ** Iterators.  [next] takes the iterator's state and returns the item (or [None])
    and the new state. *)

Section Iterators.
  Context {St X : Type} (next : St -> outcome (option X * St)).

  (** [Consumed it l it']: the first [length l] calls of [next] return the items [l]
      and leave the iterator in state [it']. *)
  Inductive Consumed : St -> list X -> St -> Prop :=
  | Consumed_nil it : Consumed it [] it
  | Consumed_cons it x it1 l it2 :
      next it = Ok (Some x, it1) -> Consumed it1 l it2 -> Consumed it (x :: l) it2.

  (** [Drains it l]: iterating yields exactly the items [l], then [None], and after
      that [None] forever (the iterator is fused). *)
  Definition Drains (it : St) (l : list X) : Prop :=
    exists it1 it2, Consumed it l it1
      /\ next it1 = Ok (None, it2) /\ next it2 = Ok (None, it2).

  (** Executable version for examples: collect at most [fuel] items. *)
  Fixpoint collect (fuel : nat) (it : St) : outcome (list X) :=
    match fuel with
    | O => Fail FDiverge
    | S fuel' =>
        let! (x, it') := next it in
        match x with
        | None => Ok []
        | Some x => let! l := collect fuel' it' in Ok (x :: l)
        end
    end.
End Iterators.

(** Running a list of effectful steps from left to right ([for x in l { ... }]). *)
Fixpoint fold_outcome {S X} (f : S -> X -> outcome S) (l : list X) (s : S) : outcome S :=
  match l with
  | [] => Ok s
  | x :: l' => let! s' := f s x in fold_outcome f l' s'
  end.

(** The range [0..n] of [usize]. *)
Definition zrange (n : Z) : list Z := map Z.of_nat (seq 0 (Z.to_nat n)).
