(** * AxisQuirks: indices out of range, and the deprecated parts of the axis traits. *)

From Verif Require Import Machine Axes Spec AxisProofs Main1 Main2.
From Coq Require Import ZifyBool ZifyNat.

Ltac out_of_range i H :=
  do 9 (try (destruct i as [|i]; [exfalso; cbn in H; lia|])); reflexivity.

Lemma c78_release : forall (A D : Type) (ax : AxisOps A D) (geo : AxisGeo A D), KnownAxis ax geo ->
  (forall i, (ax_COUNT ax <= i)%nat -> ax_from_index_unchecked ax Release i = Fail FUB) /\
  (forall i, (ax_UNDIRECTED_COUNT ax <= i)%nat ->
     dir_from_index_unchecked (ax_dir ax) Release i = Fail FUB).
Proof.
  intros A D ax geo K. destruct K; (split; intros i H; cbn in H; out_of_range i H).
Qed.

Definition checked_outside {A D} (ax : AxisOps A D) : Prop :=
  (forall i, (ax_COUNT ax <= i)%nat -> ax_from_index_unchecked ax Debug i = Fail FPanic) /\
  (forall i, (ax_UNDIRECTED_COUNT ax <= i)%nat ->
     dir_from_index_unchecked (ax_dir ax) Debug i = Fail FPanic).

Ltac checked := split; intros i H; cbn in H; out_of_range i H.

Lemma c78_debug :
  checked_outside dsq_axis /\ checked_outside r_axis /\ checked_outside dr_axis /\
  checked_outside q_axis /\ checked_outside dq_axis /\
  (forall i, (4 <= i)%nat -> ax_from_index_unchecked dg_axis Debug i = Fail FPanic) /\
  (forall i, (4 <= i)%nat -> dir_from_index_unchecked (ax_dir sq_axis) Debug i = Fail FPanic).
Proof.
  do 5 (split; [checked|]). split; intros i H; out_of_range i H.
Qed.

Lemma c78_debug_refuted :
  (forall i, (2 <= i)%nat -> ax_from_index_unchecked sq_axis Debug i = Fail FUB) /\
  (forall i, (8 <= i)%nat -> ax_from_index_unchecked ddg_axis Debug i = Fail FUB) /\
  (forall i, (8 <= i)%nat -> dir_from_index_unchecked (ax_dir dg_axis) Debug i = Fail FUB) /\
  (forall i, (8 <= i)%nat -> dir_from_index_unchecked (ax_dir ddg_axis) Debug i = Fail FUB).
Proof. repeat split; intros i H; out_of_range i H. Qed.

Lemma c79_forward : forall (A D : Type) (ax : AxisOps A D) (geo : AxisGeo A D),
  KnownAxis ax geo -> forall d, dir_is_forward (ax_dir ax) d = true.
Proof. intros A D ax geo K. destruct K; reflexivity. Qed.

Lemma c79_directed : forall (A D : Type) (ax : AxisOps A D) (geo : AxisGeo A D) (m : mode),
  KnownAxis ax geo -> ax_DIRECTED ax = true ->
  forall d, ax_is_forward_direction ax m d = Ok (dir_is_forward (ax_dir ax) d).
Proof. intros A D ax geo m K. destruct K; intros H; try discriminate; reflexivity. Qed.

Lemma c79_refuted : forall (A D : Type) (ax : AxisOps A D) (geo : AxisGeo A D) (m : mode),
  KnownAxis ax geo -> ax_DIRECTED ax = false ->
  exists d, dir_is_forward (ax_dir ax) d = true /\ ax_is_forward_direction ax m d = Ok false.
Proof.
  intros A D ax geo m K H. destruct K; try discriminate H.
  - exists DRX. split; reflexivity.
  - exists DS. split; reflexivity.
  - exists RW. split; reflexivity.
  - exists QS. split; reflexivity.
Qed.

Lemma c79_generic : forall (A D : Type) (ax : AxisOps A D) (geo : AxisGeo A D) (m : mode),
  KnownAxis ax geo -> let o := gdirection_ops ax in
  (forall i d, dir_from_index o i = Some d <-> dir_to_index o d = i) /\
  (forall i, (exists d, dir_from_index o i = Some d) <-> (i < 2 * ax_COUNT ax)%nat) /\
  (forall i d, dir_from_index o i = Some d -> dir_from_index_unchecked o m i = Ok d) /\
  (forall i, (2 * ax_COUNT ax <= i)%nat -> dir_from_index_unchecked o Release i = Fail FUB) /\
  (forall d, dir_is_forward o d = Nat.ltb (dir_to_index o d) (ax_COUNT ax)).
Proof.
  intros A D ax geo m K. cbv zeta.
  pose proof (fun m' => known_axis_ok A D ax geo m' K) as AO.
  assert (HA : forall i a, ax_from_index ax i = Some a <-> ax_to_index ax a = i).
  { intros i a. rewrite (ao_from_index _ _ _ (AO m)). split.
    - apply (ao_nth_inv _ _ _ (AO m)).
    - intros <-. apply (ao_nth _ _ _ (AO m)). }
  assert (HT : forall i, (exists a, ax_from_index ax i = Some a) <-> (i < ax_COUNT ax)%nat).
  { intros i. rewrite (ao_from_index _ _ _ (AO m)), (ao_count _ _ _ (AO m)), <- nth_error_Some.
    split; [intros (a & ->); discriminate|].
    destruct (nth_error (ag_axes geo) i) as [a|]; [eauto|congruence]. }
  assert (HU : forall m' i a, ax_from_index ax i = Some a -> ax_from_index_unchecked ax m' i = Ok a).
  { intros m' i a H. apply (ao_from_index_unchecked _ _ _ (AO m')).
    rewrite <- (ao_from_index _ _ _ (AO m')). exact H. }
  assert (HL : forall a, (ax_to_index ax a < ax_COUNT ax)%nat).
  { intros a. apply HT. exists a. apply HA. reflexivity. }
  assert (HF : forall i d, dir_from_index (gdirection_ops ax) i = Some d <->
     dir_to_index (gdirection_ops ax) d = i).
  { intros i d. cbn [gdirection_ops dir_from_index dir_to_index].
    destruct (Nat.ltb_spec i (ax_COUNT ax)) as [Hi|Hi].
    - destruct (proj2 (HT i) Hi) as (a & Ha). rewrite (HU Release i a Ha). split.
      + intros [= <-]. apply HA. auto.
      + destruct d as [x|x]; intros H; [|lia]. apply HA in H. congruence.
    - split.
      + destruct (ax_from_index ax (i - ax_COUNT ax)) as [x|] eqn:Ex; [|discriminate].
        intros [= <-]. apply HA in Ex. lia.
      + destruct d as [x|x]; intros H; [pose proof (HL x); lia|].
        rewrite (proj2 (HA (i - ax_COUNT ax)%nat x)) by lia. reflexivity. }
  split; [exact HF|]. split; [|split; [|split]].
  - intros i. split.
    + intros (d & Hd). apply HF in Hd. subst i. cbn [gdirection_ops dir_to_index].
      destruct d as [x|x]; pose proof (HL x); lia.
    + intros Hi. destruct (lt_dec i (ax_COUNT ax)) as [H|H].
      * destruct (proj2 (HT i) H) as (a & Ha). exists (GFoward a). apply HF. apply HA. auto.
      * destruct (proj2 (HT (i - ax_COUNT ax)%nat)) as (a & Ha); [lia|]. exists (GBackward a).
        apply HF. cbn [gdirection_ops dir_to_index]. apply HA in Ha. lia.
  - intros i d Hd. apply HF in Hd. subst i. cbn [gdirection_ops dir_from_index_unchecked dir_to_index].
    destruct d as [x|x].
    + rewrite (proj2 (Nat.ltb_lt _ _) (HL x)). rewrite (HU m _ x) by (apply HA; auto). reflexivity.
    + replace (_ <? _)%nat with false by (symmetry; apply Nat.ltb_ge; lia).
      rewrite (HU m _ x) by (apply HA; lia). reflexivity.
  - intros i Hi. cbn [gdirection_ops dir_from_index_unchecked].
    replace (i <? ax_COUNT ax)%nat with false by (symmetry; apply Nat.ltb_ge; lia).
    rewrite (proj1 (c78_release A D ax geo K)) by lia. reflexivity.
  - intros [x|x]; cbn [gdirection_ops dir_is_forward dir_to_index]; symmetry.
    + apply Nat.ltb_lt. apply HL.
    + apply Nat.ltb_ge. lia.
Qed.
