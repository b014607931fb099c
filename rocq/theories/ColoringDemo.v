(** * ColoringDemo: a heap for the examples of Properties39.v. *)

From Verif Require Import Machine Spec Basics GeoProofs Main1 Coloring.
From Coq Require Import Permutation ZifyBool.

Lemma same_cell_iff : forall a b, same_cell a b = true <-> a = b.
Proof. intros a b. rewrite same_cell_eq. apply pair_eqb_eq. Qed.

(** A heap that keeps its entries in order, the greatest first. *)
Definition score_leb (a b : Z * Z) : bool :=
  (fst a <? fst b) || ((fst a =? fst b) && (snd a <=? snd b)).
Fixpoint sorted_push (x : (Z * Z) * Cell) (q : list ((Z * Z) * Cell)) : list ((Z * Z) * Cell) :=
  match q with
  | [] => [x]
  | y :: q' => if score_leb (fst y) (fst x) then x :: q else y :: sorted_push x q'
  end.
(** It takes out a greatest entry even if the list it is given is in no order. *)
Definition sorted_pop (q : list ((Z * Z) * Cell)) : option (((Z * Z) * Cell) * list ((Z * Z) * Cell)) :=
  match fold_right sorted_push [] q with
  | [] => None
  | x :: q' => Some (x, q')
  end.
Definition sorted_heap : MaxHeap Cell := {| mh_push := sorted_push; mh_pop := sorted_pop |}.

Lemma sorted_push_perm : forall x q, Permutation (sorted_push x q) (x :: q).
Proof.
  intros x q. induction q as [|y q IH]; cbn [sorted_push]; [reflexivity|].
  destruct (score_leb (fst y) (fst x)); [reflexivity|]. rewrite IH. constructor.
Qed.

Lemma sorted_push_top : forall x q,
  (forall y l, q = y :: l -> forall z, In z q -> score_le (fst z) (fst y)) ->
  forall y l, sorted_push x q = y :: l -> forall z, In z (sorted_push x q) -> score_le (fst z) (fst y).
Proof.
  assert (R : forall a, score_le a a) by (intros a; right; lia).
  intros x q HQ y l E z Hz.
  assert (Hz' : z = x \/ In z q) by (pose proof (Permutation_in _ (sorted_push_perm x q) Hz) as K; destruct K; auto).
  destruct q as [|w q]; cbn [sorted_push] in E.
  - injection E as <- <-. destruct Hz' as [->|[]]. apply R.
  - specialize (HQ w q eq_refl). destruct (score_leb (fst w) (fst x)) eqn:Ew; injection E as <- <-.
    + destruct Hz' as [->|Hz']; [apply R|]. specialize (HQ z Hz').
      unfold score_leb in Ew. unfold score_le in *. lia.
    + destruct Hz' as [->|Hz']; [|auto]. unfold score_leb in Ew. unfold score_le in *. lia.
Qed.

Example sorted_heap_ok : MaxHeapOK sorted_heap.
Proof.
  split; [exact sorted_push_perm|]. intros q. cbn [sorted_heap mh_pop]. unfold sorted_pop.
  assert (P : Permutation (fold_right sorted_push [] q) q).
  { induction q as [|x q IH]; cbn [fold_right]; [constructor|]. rewrite sorted_push_perm. auto. }
  assert (T : forall y l, fold_right sorted_push [] q = y :: l ->
    forall z, In z (fold_right sorted_push [] q) -> score_le (fst z) (fst y)).
  { clear P. induction q as [|x q IH]; cbn [fold_right]; [discriminate|]. apply sorted_push_top, IH. }
  destruct (fold_right sorted_push [] q) as [|x q'].
  - apply Permutation_nil in P. auto.
  - split; [symmetry; auto|]. intros y Hy. apply (T x q' eq_refl). rewrite P. auto.
Qed.
