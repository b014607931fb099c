(** * ConvertProofs: what converting pairs keeps. *)

From Verif Require Import Machine Store Axes Shapes SquareGraph Convert SpecSquare Basics
  SquareProofs SquareMain.
From Coq Require Import ZifyBool ZifyNat.
Ltac Zify.zify_post_hook ::= Z.div_mod_to_equations.

Lemma pair_eq_b : forall a b : Z * Z, (fst a =? fst b) && (snd a =? snd b) = true <-> a = b.
Proof.
  intros [a1 a2] [b1 b2]. cbn [fst snd]. rewrite andb_true_iff, !Z.eqb_eq.
  split; [intros [-> ->]; auto|intros [= -> ->]; auto].
Qed.

Lemma c101_offset :
  (forall p, offset_to_pair (offset_of_pair p) = p) /\
  (forall x, offset_of_pair (offset_to_pair x) = x) /\
  (forall p, o_horizontal (offset_of_pair p) = fst p /\ o_vertical (offset_of_pair p) = snd p) /\
  (forall o p, so_eq_pair o p = true <-> o = so_of_pair p) /\
  (forall p q, so_eq_pair (so_of_pair p) q = true <-> p = q).
Proof.
  split; [intros []; auto|]. split; [intros []; auto|]. split; [intros []; auto|].
  split; [intros o []|intros [] q]; apply pair_eq_b.
Qed.

Definition in_type (ix : IxType) (n : Z * Z) : Prop :=
  0 <= fst n < ix_size ix /\ 0 <= snd n < ix_size ix.

Lemma ix_size_pos : forall ix, 0 < ix_size ix.
Proof. destruct ix; reflexivity. Qed.

Lemma in_type_of_pair : forall ix p, in_type ix (ni_of_pair ix p).
Proof.
  intros ix p. pose proof (ix_size_pos ix). split; cbn [ni_of_pair fst snd]; unfold ix_new;
    apply Z.mod_pos_bound; auto.
Qed.

Lemma of_pair_same : forall ix p, ni_of_pair ix p = p <-> in_type ix p.
Proof.
  intros ix p. split; [intros <-; apply in_type_of_pair|].
  intros [H1 H2]. destruct p as [x y]. cbn [fst snd] in *. unfold ni_of_pair, ix_new. cbn [fst snd].
  rewrite !Z.mod_small by auto. reflexivity.
Qed.

Lemma c101_index : forall ix,
  (forall n, in_type ix n -> ni_of_pair ix (ni_to_pair n) = n) /\
  (forall n p, ni_eq_pair n p = true <-> ni_to_pair n = p) /\
  (forall p, in_type ix p <-> ni_eq_pair (ni_of_pair ix p) p = true) /\
  (forall p, in_type ix p <-> ni_to_pair (ni_of_pair ix p) = p).
Proof.
  intros ix. split; [|split; [|split]].
  - intros [x y] H. apply (of_pair_same ix (x, y)). auto.
  - intros [x y] p. apply (pair_eq_b (x, y) p).
  - intros p. rewrite <- of_pair_same. symmetry. apply pair_eq_b.
  - intros p. rewrite <- of_pair_same. destruct (ni_of_pair ix p). reflexivity.
Qed.

Section Weights.
  Context {N E : Type} {ix : IxType} {S : LoopShape} {m : mode} {h v : Z} (SZ : sq_size S h v).

  Lemma c101_weight : forall (g : SquareGraph N E ix S) nf ef, SqBuilt m h v g nf ef ->
    forall p n, on_board h v n -> fst p mod ix_size ix = fst n -> snd p mod ix_size ix = snd n ->
    sg_node_weight g (ni_of_pair ix p) = Some (nf n).
  Proof.
    intros g nf ef B p [x y] Hn H1 H2. cbn [fst snd] in *.
    replace (ni_of_pair ix p) with (x, y)
      by (unfold ni_of_pair, ix_new; rewrite H1, H2; reflexivity).
    apply (c41_node SZ B (x, y)). auto.
  Qed.

  Lemma c101_wrong : ix <> IxUsize -> sq_index_fits ix h v -> 1 <= v ->
    forall (g : SquareGraph N E ix S) nf ef, SqBuilt m h v g nf ef ->
    forall n, on_board h v n -> exists p,
      0 <= fst p < 2 ^ 64 /\ 0 <= snd p < 2 ^ 64 /\ ~ on_board h v p /\
      sg_node_weight g (ni_of_pair ix p) = Some (nf n).
  Proof.
    intros Hix (F1 & F2) Hv g nf ef B [x y] Hn. pose proof (ix_size_pos ix) as HP.
    destruct Hn as [Hx Hy]. cbn [fst snd] in *.
    assert (Hs : 2 * ix_size ix <= 2 ^ 64) by (destruct ix; vm_compute; congruence).
    exists (x + ix_size ix, y). cbn [fst snd]. split; [lia|]. split; [lia|].
    split; [intros [H _]; cbn [fst] in H; lia|].
    eapply c101_weight; eauto; cbn [fst snd].
    - split; auto.
    - rewrite <- (Z.mul_1_l (ix_size ix)) at 1. rewrite Z.mod_add by lia. apply Z.mod_small. lia.
    - apply Z.mod_small. lia.
  Qed.
End Weights.
