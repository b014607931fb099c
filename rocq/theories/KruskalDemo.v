(** * KruskalDemo: a union-find structure and boards for the examples. *)

From Verif Require Import Machine Store Axes Shapes Lattice SquareGraph Traverse Astar Spec
  SpecSquare Spec4 Spec5 Basics GeoProofs AstarProofs Demo SquareDemo AstarDemo Kruskal Spec7.
From Coq Require Import ZifyBool ZifyNat.

(** Every number has the label of its class; [union] relabels one of the classes. *)
Definition label_union (t : list Z) (a b : Z) : outcome (bool * list Z) :=
  match nth_error t (Z.to_nat a), nth_error t (Z.to_nat b) with
  | Some x, Some y =>
      if x =? y then Ok (false, t) else Ok (true, map (fun z => if z =? y then x else z) t)
  | _, _ => Fail FPanic
  end.
Definition label_uf : UFOps (list Z) :=
  {| uf_new := zrange; uf_union := label_union; uf_labels := fun t => t |}.

Lemma linked_cons : forall X (es : list (X * X)) a b i j,
  Linked ((a, b) :: es) i j <->
  Linked es i j \/ Linked es i a /\ Linked es b j \/ Linked es i b /\ Linked es a j.
Proof.
  intros X es a b i j.
  assert (S : forall x y, Linked es x y -> Linked es y x) by (intros; apply linked_sym; auto).
  assert (T : forall x y z, Linked es x y -> Linked es y z -> Linked es x z)
    by (intros; eapply linked_trans; eauto).
  split.
  - intros HL. induction HL as [x y Hi|x|x y HL IH|x y z H1 IH1 H2 IH2].
    + destruct Hi as [[= -> ->]|Hi]; [right; left; split; apply linked_refl|left; apply linked_edge; auto].
    + left. apply linked_refl.
    + destruct IH as [H|[[H1 H2]|[H1 H2]]]; eauto 6.
    + destruct IH1 as [A|[[A1 A2]|[A1 A2]]], IH2 as [B|[[B1 B2]|[B1 B2]]]; eauto 7.
  - assert (M : forall x y, Linked es x y -> Linked ((a, b) :: es) x y).
    { intros x y HL. induction HL; [apply linked_edge; right; auto|apply linked_refl|apply linked_sym; auto|].
      eapply linked_trans; eauto. }
    assert (AB : Linked ((a, b) :: es) a b) by (apply linked_edge; left; auto).
    intros [H|[[H1 H2]|[H1 H2]]]; auto.
    + eapply linked_trans; [apply M; eauto|]. eapply linked_trans; [exact AB|auto].
    + eapply linked_trans; [apply M; eauto|]. eapply linked_trans; [apply linked_sym, AB|auto].
Qed.

Lemma label_uf_ok : UFOK label_uf.
Proof.
  exists (fun t n es => length t = Z.to_nat n /\ 0 <= n /\
    forall i j, 0 <= i < n -> 0 <= j < n ->
      (nth (Z.to_nat i) t 0 = nth (Z.to_nat j) t 0 <-> Linked es i j)).
  cbn [uf_new uf_union uf_labels label_uf]. split; [|split].
  - intros n Hn. unfold zrange. split; [rewrite map_length, seq_length; auto|]. split; auto.
    intros i j Hi Hj.
    assert (NT : forall i, 0 <= i < n -> nth (Z.to_nat i) (map Z.of_nat (seq 0 (Z.to_nat n))) 0 = i).
    { intros k Hk. rewrite (nth_indep _ 0 (Z.of_nat 0)) by (rewrite map_length, seq_length; lia).
      rewrite map_nth, seq_nth by lia. lia. }
    rewrite !NT by auto. split; [intros ->; apply linked_refl|].
    intros HL. clear -HL. induction HL; auto; [destruct H|congruence].
  - intros t n es a b (LT & Hn & HL) Ha Hb. unfold label_union.
    assert (NE : forall i, 0 <= i < n -> nth_error t (Z.to_nat i) = Some (nth (Z.to_nat i) t 0)).
    { intros i Hi. apply nth_error_nth'. lia. }
    rewrite (NE a Ha), (NE b Hb).
    destruct (Z.eqb_spec (nth (Z.to_nat a) t 0) (nth (Z.to_nat b) t 0)) as [Eq|Ne].
    + exists false, t. split; auto. split; [split; [discriminate|intros Hx; exfalso; apply Hx, HL; auto]|].
      split; auto. split; auto. intros i j Hi Hj. rewrite linked_cons, HL by auto.
      apply HL in Eq; auto. split; [auto|].
      intros [H|[[H1 H2]|[H1 H2]]]; auto; eapply linked_trans; eauto; eapply linked_trans; eauto.
      apply linked_sym; auto.
    + eexists true, _. split; [reflexivity|]. split; [split; auto; intros _ Hx; apply Ne, HL; auto|].
      split; [rewrite map_length; auto|]. split; auto. intros i j Hi Hj.
      set (x := nth (Z.to_nat a) t 0) in *. set (y := nth (Z.to_nat b) t 0) in *.
      set (f := fun z => if z =? y then x else z).
      assert (NF : forall i, 0 <= i < n -> nth (Z.to_nat i) (map f t) 0 = f (nth (Z.to_nat i) t 0)).
      { intros k Hk. rewrite (nth_indep _ 0 (f 0)) by (rewrite map_length; lia). apply map_nth. }
      rewrite !NF, linked_cons by auto. rewrite <- !HL by auto. fold x y. unfold f.
      destruct (Z.eqb_spec (nth (Z.to_nat i) t 0) y), (Z.eqb_spec (nth (Z.to_nat j) t 0) y); intuition congruence.
  - intros t n es (LT & Hn & HL). auto.
Qed.
