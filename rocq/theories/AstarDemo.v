(** * AstarDemo: A* runs for the examples and counterexamples. *)

From Verif Require Import Machine Store Axes Shapes Lattice SquareGraph Traverse Astar Spec
  SpecSquare Spec4 Basics GeoProofs AstarProofs AxisProofs SquareProofs SquareMain Main1 AstarMain
  Demo SquareDemo.
From Coq Require Import ZifyBool ZifyNat Permutation.

(** A heap kept as a plain list. *)
Fixpoint list_pop {C} (q : list (Z * C)) : option ((Z * C) * list (Z * C)) :=
  match q with
  | [] => None
  | x :: q =>
      match list_pop q with
      | None => Some (x, [])
      | Some (y, q') => if fst x <=? fst y then Some (x, y :: q') else Some (y, x :: q')
      end
  end.
Definition list_heap {C} : HeapOps C := {| heap_push := cons; heap_pop := list_pop |}.

Lemma list_heap_ok : forall C, HeapOK (list_heap (C := C)).
Proof.
  intros C. split; [intros x q; apply Permutation_refl|]. cbn [heap_pop list_heap].
  induction q as [|x q IH]; cbn [list_pop]; auto.
  destruct (list_pop q) as [[y q']|].
  - destruct IH as [P M]. destruct (fst x <=? fst y) eqn:E; split.
    + apply perm_skip; auto.
    + intros z [<-|Hz]; [lia|]. specialize (M z Hz). lia.
    + etransitivity; [apply perm_skip, P|]. apply perm_swap.
    + intros z [<-|Hz]; [lia|]. auto.
  - subst q. split; auto. intros y [<-|[]]. lia.
Qed.

(** The boards of the repository's tests: square.rs:743-760 and square/tests.rs:349-356. *)
Definition test_shape : Shape Cell SquareAxis DirectedSquareAxis := square_shape 4 3.
Definition testG := square_geometry square_axes 4 3.
Definition test_node (c : Cell) : Z := fst c + 2 * snd c.
Definition test_edge (c : Cell) (a : SquareAxis) : Z :=
  (fst c + 2 * snd c) * match a with SX => 1 | SY => 3 end.
Definition test_board : LatticeGraph Cell SquareAxis DirectedSquareAxis Z Z :=
  match new_with test_shape (fun st c => (test_node c, st))
          (fun st c a => (test_edge c a, st)) Debug tt with
  | Ok (g, _) => g
  | Fail _ => mkGraph (mkArray2 0 0 []) [] test_shape
  end.

Lemma test_ok : Supported test_shape testG.
Proof. apply sup_square. apply fits_small; lia. Qed.

Lemma test_built : Built Debug test_shape testG test_board test_node test_edge.
Proof.
  apply built_new.
  destruct (c01 (m := Debug) (st_supported _ _ _ _ test_ok) test_node test_edge)
    as (g & Hg & _).
  unfold test_board. rewrite Hg. reflexivity.
Qed.

Definition sq_test_edge (e : EdgeIndex) : Z :=
  (fst (fst e) + 2 * snd (fst e)) * match snd e with Horizontal => 1 | Vertical => 3 end.
Definition sq_test_board : SquareGraph unit Z IxU32 DefaultShape :=
  match sg_new_with Debug 3 4 (node_fun (fun u n => (tt, u)))
          (edge_fun (fun u n a => (sq_test_edge (n, a), u))) tt with
  | Ok (g, _) => g
  | Fail _ => mkSquare (mkArray2 0 0 []) (mkArray2 0 0 []) (mkArray2 0 0 [])
  end.

Lemma sq_test_built : SqBuilt Debug 3 4 sq_test_board (fun _ => tt) sq_test_edge.
Proof.
  constructor. unfold sq_test_board.
  destruct (new_with_rep (ix := IxU32) (S := DefaultShape) (fun u n => (tt, u))
    (fun u n a => (sq_test_edge (n, a), u)) Debug 3 4 tt) as (g & -> & _); [sq_size|].
  destruct (state_after _ _ _ tt). reflexivity.
Qed.

(** Six columns in a ring: two steps to the west are as good as four to the east, but
    [NodeIndex::distance] does not know. *)
Definition ring (m : mode) := sqd IxU32 HorizontalLoop m 6 1.

