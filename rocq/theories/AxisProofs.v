(** * AxisProofs: the eight axis types implement the axes of [Spec.v]. *)

From Verif Require Import Machine Axes Spec.

Lemma veqb_eq : forall a b, veqb a b = true <-> a = b.
Proof.
  intros [a1 a2] [b1 b2]; unfold veqb; simpl. rewrite andb_true_iff, !Z.eqb_eq.
  split; [intros [-> ->] | intros [= -> ->]]; auto.
Qed.

(** [AxisOK m ax g]: the operations [ax] implement the axes and directions [g]. *)
Record AxisOK {A D} (m : mode) (ax : AxisOps A D) (g : AxisGeo A D) : Prop := {
  ao_count : ax_COUNT ax = length (ag_axes g);
  ao_ucount : ax_UNDIRECTED_COUNT ax = length (ag_dirs g);
  ao_directed : ax_DIRECTED ax = ag_directed g;
  ao_nth : forall a, nth_error (ag_axes g) (ax_to_index ax a) = Some a;
  ao_nth_inv : forall i a, nth_error (ag_axes g) i = Some a -> ax_to_index ax a = i;
  ao_from_index : forall i, ax_from_index ax i = nth_error (ag_axes g) i;
  ao_from_index_unchecked : forall i a,
    nth_error (ag_axes g) i = Some a -> ax_from_index_unchecked ax m i = Ok a;
  ao_dnth : forall d, nth_error (ag_dirs g) (dir_to_index (ax_dir ax) d) = Some d;
  ao_dnth_inv : forall i d,
    nth_error (ag_dirs g) i = Some d -> dir_to_index (ax_dir ax) d = i;
  ao_dir_from_index : forall i, dir_from_index (ax_dir ax) i = nth_error (ag_dirs g) i;
  ao_dir_from_index_unchecked : forall i d,
    nth_error (ag_dirs g) i = Some d -> dir_from_index_unchecked (ax_dir ax) m i = Ok d;
  ao_fwd : forall a, ax_foward ax m a = Ok (ag_fwd g a);
  ao_bwd : forall a, exists d, ax_backward ax m a = Ok d /\ opposite g (ag_fwd g a) d;
  ao_vec_inj : forall d d', ag_vec g d = ag_vec g d' -> d = d';
  ao_vec_nonzero : forall d, ag_vec g d <> (0, 0);
  ao_fwd_inj : forall a a', ag_fwd g a = ag_fwd g a' -> a = a';
  ao_fwd_index : forall a, dir_to_index (ax_dir ax) (ag_fwd g a) = ax_to_index ax a;
  ao_opp : forall d, exists d', opposite g d d';
  ao_class : forall d,
    (exists a, ag_fwd g a = d /\
      find (fun a => veqb (ag_vec g (ag_fwd g a)) (ag_vec g d)) (ag_axes g) = Some a /\
      ax_from_direction ax m d = Ok a /\
      ax_is_forward_direction ax m d = Ok true) \/
    (ag_directed g = false /\ exists a, opposite g d (ag_fwd g a) /\
      find (fun a => veqb (ag_vec g (ag_fwd g a)) (ag_vec g d)) (ag_axes g) = None /\
      find (fun a => veqb (ag_vec g (ag_fwd g a)) (vneg (ag_vec g d))) (ag_axes g) = Some a /\
      ax_from_direction ax m d = Ok a /\
      ax_is_forward_direction ax m d = Ok false /\
      dir_to_index (ax_dir ax) d = (ax_COUNT ax + ax_to_index ax a)%nat);
  ao_directed_fwd : ag_directed g = true -> forall d, exists a, ag_fwd g a = d;
  ao_undirected_opp : ag_directed g = false ->
    forall a a', ~ opposite g (ag_fwd g a) (ag_fwd g a')
}.

Ltac nth_cases :=
  let i := fresh "i" in let x := fresh "x" in let H := fresh "H" in
  intros i x H;
  do 9 (try (destruct i as [|i]; simpl in H;
          [ first [discriminate H | injection H as H; subst x; reflexivity] | ]));
  discriminate H.

Ltac index_cases :=
  let i := fresh "i" in intros i; do 9 (try destruct i as [|i]); reflexivity.

Ltac inj_cases :=
  let H := fresh "H" in intros [] []; simpl; intros H; first [discriminate H | reflexivity].

Ltac axis_ok :=
  constructor;
  [ reflexivity | reflexivity | reflexivity
  | intros []; reflexivity
  | nth_cases
  | index_cases
  | nth_cases
  | intros []; reflexivity
  | nth_cases
  | index_cases
  | nth_cases
  | intros []; reflexivity
  | intros []; (eexists; split; [reflexivity | reflexivity])
  | inj_cases
  | intros []; discriminate
  | inj_cases
  | intros []; reflexivity
  | idtac
  | idtac
  | idtac
  | first [ discriminate | intros _ [] []; discriminate ] ].

Ltac fwd_case a := left; exists a; repeat split; reflexivity.
Ltac bwd_case a := right; split; [reflexivity|]; exists a; repeat split; reflexivity.

Lemma square_axis_ok : forall m, AxisOK m sq_axis square_axes.
Proof.
  intros m. axis_ok.
  - intros []; [exists DRX | exists DRY | exists DX | exists DY]; reflexivity.
  - intros [].
    + fwd_case SX. + fwd_case SY. + bwd_case SX. + bwd_case SY.
  - discriminate.
Qed.

Lemma dsquare_axis_ok : forall m, AxisOK m dsq_axis (directed_axes square_axes).
Proof.
  intros m. axis_ok.
  - intros []; [exists DRX | exists DRY | exists DX | exists DY]; reflexivity.
  - intros []; [fwd_case DX | fwd_case DY | fwd_case DRX | fwd_case DRY].
  - intros _ d. exists d. reflexivity.
Qed.

Lemma diagonal_axis_ok : forall m, AxisOK m dg_axis diagonal_axes.
Proof.
  intros m. axis_ok.
  - intros []; [exists DS | exists DSW | exists DW | exists DNW
               | exists DN | exists DNE | exists DE | exists DSE]; reflexivity.
  - intros []; [fwd_case GN | fwd_case GNE | fwd_case GE | fwd_case GSE
               | bwd_case GN | bwd_case GNE | bwd_case GE | bwd_case GSE].
  - discriminate.
Qed.

Lemma ddiagonal_axis_ok : forall m, AxisOK m ddg_axis (directed_axes diagonal_axes).
Proof.
  intros m. axis_ok.
  - intros []; [exists DS | exists DSW | exists DW | exists DNW
               | exists DN | exists DNE | exists DE | exists DSE]; reflexivity.
  - intros []; [fwd_case DN | fwd_case DNE | fwd_case DE | fwd_case DSE
               | fwd_case DS | fwd_case DSW | fwd_case DW | fwd_case DNW].
  - intros _ d. exists d. reflexivity.
Qed.

Lemma hexr_axis_ok : forall m, AxisOK m r_axis hexr_axes.
Proof.
  intros m. axis_ok.
  - intros []; [exists RSW | exists RW | exists RNW
               | exists RNE | exists RE | exists RSE]; reflexivity.
  - intros []; [fwd_case ANE | fwd_case AE | fwd_case ASE
               | bwd_case ANE | bwd_case AE | bwd_case ASE].
  - discriminate.
Qed.

Lemma dhexr_axis_ok : forall m, AxisOK m dr_axis (directed_axes hexr_axes).
Proof.
  intros m. axis_ok.
  - intros []; [exists RSW | exists RW | exists RNW
               | exists RNE | exists RE | exists RSE]; reflexivity.
  - intros []; [fwd_case RNE | fwd_case RE | fwd_case RSE
               | fwd_case RSW | fwd_case RW | fwd_case RNW].
  - intros _ d. exists d. reflexivity.
Qed.

Lemma hexq_axis_ok : forall m, AxisOK m q_axis hexq_axes.
Proof.
  intros m. axis_ok.
  - intros []; [exists QS | exists QSW | exists QNW
               | exists QN | exists QNE | exists QSE]; reflexivity.
  - intros []; [fwd_case BN | fwd_case BNE | fwd_case BSE
               | bwd_case BN | bwd_case BNE | bwd_case BSE].
  - discriminate.
Qed.

Lemma dhexq_axis_ok : forall m, AxisOK m dq_axis (directed_axes hexq_axes).
Proof.
  intros m. axis_ok.
  - intros []; [exists QS | exists QSW | exists QNW
               | exists QN | exists QNE | exists QSE]; reflexivity.
  - intros []; [fwd_case QN | fwd_case QNE | fwd_case QSE
               | fwd_case QS | fwd_case QSW | fwd_case QNW].
  - intros _ d. exists d. reflexivity.
Qed.

Section AxisFacts.
  Context {A D : Type} {m : mode} {ax : AxisOps A D} {g : AxisGeo A D} (OK : AxisOK m ax g).

  Lemma opposite_sym : forall d d', opposite g d d' -> opposite g d' d.
  Proof.
    unfold opposite, vneg. intros d d' H. rewrite H. simpl.
    rewrite !Z.opp_involutive. apply surjective_pairing.
  Qed.

  Lemma opposite_unique : forall d d1 d2, opposite g d d1 -> opposite g d d2 -> d1 = d2.
  Proof.
    unfold opposite. intros. apply (ao_vec_inj _ _ _ OK). congruence.
  Qed.

  Lemma to_index_inj : forall a a', ax_to_index ax a = ax_to_index ax a' -> a = a'.
  Proof.
    intros a a' H. pose proof (ao_nth _ _ _ OK a) as H1. rewrite H in H1.
    rewrite (ao_nth _ _ _ OK a') in H1. congruence.
  Qed.

  Lemma dir_to_index_inj : forall d d',
    dir_to_index (ax_dir ax) d = dir_to_index (ax_dir ax) d' -> d = d'.
  Proof.
    intros d d' H. pose proof (ao_dnth _ _ _ OK d) as H1. rewrite H in H1.
    rewrite (ao_dnth _ _ _ OK d') in H1. congruence.
  Qed.

  Lemma all_axes_in : forall a, In a (ag_axes g).
  Proof. intros a. eapply nth_error_In. apply (ao_nth _ _ _ OK). Qed.

  Lemma all_dirs_in : forall d, In d (ag_dirs g).
  Proof. intros d. eapply nth_error_In. apply (ao_dnth _ _ _ OK). Qed.

  Lemma to_index_lt : forall a, (ax_to_index ax a < ax_COUNT ax)%nat.
  Proof.
    intros a. rewrite (ao_count _ _ _ OK). apply nth_error_Some.
    rewrite (ao_nth _ _ _ OK). discriminate.
  Qed.

  Lemma dir_to_index_lt : forall d, (dir_to_index (ax_dir ax) d < ax_UNDIRECTED_COUNT ax)%nat.
  Proof.
    intros d. rewrite (ao_ucount _ _ _ OK). apply nth_error_Some.
    rewrite (ao_dnth _ _ _ OK). discriminate.
  Qed.

  Lemma axes_nodup : NoDup (ag_axes g).
  Proof.
    apply NoDup_nth_error. intros i j Hi H.
    destruct (nth_error (ag_axes g) i) eqn:E.
    - symmetry in H. apply (ao_nth_inv _ _ _ OK) in E. apply (ao_nth_inv _ _ _ OK) in H.
      congruence.
    - apply nth_error_None in E. lia.
  Qed.

  Lemma dirs_nodup : NoDup (ag_dirs g).
  Proof.
    apply NoDup_nth_error. intros i j Hi H.
    destruct (nth_error (ag_dirs g) i) eqn:E.
    - symmetry in H. apply (ao_dnth_inv _ _ _ OK) in E. apply (ao_dnth_inv _ _ _ OK) in H.
      congruence.
    - apply nth_error_None in E. lia.
  Qed.
End AxisFacts.
