(** * CliquesMain: [maximal_cliques] on [LatticeGraph] (C128). *)

From Coq Require Import Permutation.
From Verif Require Import Machine Store Axes Shapes Lattice Traverse Spec Spec4 Spec11 Spec19 Spec21
  Basics AxisProofs GeoProofs ShapeProofs StoreProofs GraphProofs RepProofs EdgeProofs VisitProofs
  Main1 DistProofs TraverseProofs AnySearch AstarProofs SearchProofs AnySearchMain CustomProofs
  CustomMain FilteredProofs FilteredMain BellmanMain Cliques Spec25 CliquesProofs.
From Coq Require Import ZifyBool ZifyNat.

Lemma maximal_iff : forall C (J J' : C -> C -> Prop) nodes S,
  (forall a b, In a nodes -> (J a b <-> J' a b)) ->
  MaximalClique J nodes S <-> MaximalClique J' nodes S.
Proof.
  intros C J J' nodes S HE. split; intros [(C1 & C2 & C3) C4]; split; try split; auto; try split; auto.
  - intros a b Ha Hb Hne. apply HE; auto.
  - intros c Hc HA. apply C4; auto. intros a Ha Hne. apply HE; auto.
  - intros a b Ha Hb Hne. apply HE; auto.
  - intros c Hc HA. apply C4; auto. intros a Ha Hne. apply HE; auto.
Qed.

Lemma lists_cliques_iff : forall C (J J' : C -> C -> Prop) nodes l,
  (forall a b, In a nodes -> (J a b <-> J' a b)) ->
  ListsCliques J nodes l -> ListsCliques J' nodes l.
Proof.
  intros C J J' nodes l HE (L1 & L2 & L3). split; [|split; auto].
  - intros S HS. apply (maximal_iff _ _ _ _ _ HE). auto.
  - intros S HS. apply L2. apply (maximal_iff _ _ _ _ _ HE). auto.
Qed.

(** Every clique is part of a maximal one. *)
Lemma clique_extends : forall C (dec : forall a b : C, {a = b} + {a <> b}) (nbs : C -> list C) nodes,
  (forall a b, In a nodes -> In b nodes -> In b (nbs a) -> In a (nbs b)) ->
  forall n S, (length nodes - length S <= n)%nat ->
  Clique (fun a b => In b (nbs a)) nodes S ->
  exists S', MaximalClique (fun a b => In b (nbs a)) nodes S' /\ incl S S'.
Proof.
  intros C dec nbs nodes SYM. set (J := fun a b => In b (nbs a)). induction n as [|n IH]; intros S HL HC.
  - exists S. split; [|intros c Hc; auto]. split; auto. intros c Hc HA.
    destruct HC as (C1 & C2 & C3). destruct (in_dec dec c S) as [H|H]; auto. exfalso.
    assert (HN : NoDup (c :: S)) by (constructor; auto).
    pose proof (NoDup_incl_length HN (l' := nodes)). cbn [length] in H0.
    assert (incl (c :: S) nodes) by (intros y [<-|Hy]; auto). specialize (H0 H1). lia.
  - set (f := fun c => negb (if in_dec dec c S then true else false) &&
      forallb (fun a => if in_dec dec c (nbs a) then true else false) S).
    destruct (find f nodes) as [c|] eqn:EF.
    + apply find_some in EF. destruct EF as [Hc Hf]. apply andb_true_iff in Hf. destruct Hf as [F1 F2].
      destruct (in_dec dec c S) as [H|H]; [discriminate|].
      assert (HJ : forall a, In a S -> J a c).
      { intros a Ha. rewrite forallb_forall in F2. specialize (F2 a Ha). cbv beta in F2.
        unfold J. destruct (in_dec dec c (nbs a)); [auto|discriminate]. }
      destruct HC as (C1 & C2 & C3).
      destruct (IH (c :: S)) as (S' & M & I).
      { cbn [length]. assert (HN : NoDup (c :: S)) by (constructor; auto).
        assert (HI : incl (c :: S) nodes) by (intros y [<-|Hy]; auto).
        pose proof (NoDup_incl_length HN HI) as HL'. cbn [length] in HL'. lia. }
      { split; [constructor; auto|]. split; [intros y [<-|Hy]; auto|].
        intros a b [<-|Ha] [<-|Hb] Hne; auto; [contradiction|]. apply SYM; auto. apply HJ; auto. }
      exists S'. split; auto. intros y Hy. apply I. right; auto.
    + exists S. split; [|intros c Hc; auto]. split; auto. intros c Hc HA.
      destruct (in_dec dec c S) as [H|H]; auto. exfalso.
      pose proof (List.find_none _ _ EF c Hc) as HF. unfold f in HF.
      destruct (in_dec dec c S) as [H'|_]; [contradiction|]. cbn [negb andb] in HF.
      assert (HT : forallb (fun a => if in_dec dec c (nbs a) then true else false) S = true); [|congruence].
      apply forallb_forall. intros a Ha. destruct (in_dec dec c (nbs a)) as [|HN]; auto. exfalso.
      apply HN. apply (HA a Ha). intros ->. contradiction.
Qed.

Section Lattice.
  Context {A D N E : Type} {m : mode} {s : Shape Cell A D} {G : Geometry A D}
    (SO : Sound m s G) (g : LatticeGraph Cell A D N E) (nf : Cell -> N) (ef : Cell -> A -> E)
    (HB : Built m s G g nf ef).
  Notation nodes := (geo_nodes G).
  Notation J := (fun a b => In b (spec_neighbors G a)).

  Lemma q_neighbor : forall a b, In a nodes -> J a b <-> Neighbor m g a b.
  Proof using SO HB.
    clear - SO HB. intros a b Ha. destruct (sound_facts _ _ _ _ _ SO) as ((cell & RF) & RG & _).
    pose proof (proj1 (x_c09 RF RG g nf ef a Outgoing HB Ha)) as HD. split.
    - intros H. exists (spec_neighbors G a). auto.
    - intros (l & D1 & H). rewrite (Drains_det _ _ _ _ HD D1). auto.
  Qed.

  Lemma q_sym : forall a b, In a nodes -> In b nodes -> J a b -> J b a.
  Proof using SO.
    clear - SO. intros a b Ha Hb H. destruct (sound_facts _ _ _ _ _ SO) as ((cell & RF) & RG & _).
    apply (x_in_spec_neighbors RF RG) in H. destruct H as (d & Hd).
    destruct (x_step_back RF RG a b d Ha Hd) as (d' & _ & H').
    apply (x_in_spec_neighbors RF RG). eauto.
  Qed.

  Lemma c128_cliques : forall order, SomeOrder order ->
    exists l, maximal_cliques veqb order (node_identifiers g) (node_indices_next m (g_s g))
                (neighbors g) (neighbors_next m g) (is_adjacent m g) = Ok l /\
      ListsCliques (Neighbor m g) nodes l.
  Proof using SO HB.
    intros order HO. destruct (sound_facts _ _ _ _ _ SO) as ((cell & RF) & RG & DEG).
    destruct (maximal_cliques_ok veqb order (node_identifiers g) (node_indices_next m (g_s g))
      (neighbors g) (neighbors_next m g) (is_adjacent m g) nodes (spec_neighbors G)) as (l & E1 & HL).
    - exact veqb_eq.
    - exact HO.
    - exact (nodes_nodup RF).
    - exact (x_c06 RF RG g nf ef HB).
    - exact (refines_few _ _ _ _ _ _ RF).
    - intros c Hc. exact (proj1 (x_c09 RF RG g nf ef c Outgoing HB Hc)).
    - intros c _. apply DEG.
    - intros a b Ha. destruct (x_c11 RF RG g nf ef a b HB Ha) as (l & r & o & H1 & H2 & _ & H3 & _).
      exists r. split; auto.
      rewrite (Drains_det _ _ _ _ (proj1 (x_c09 RF RG g nf ef a Outgoing HB Ha)) H1). auto.
    - exact q_sym.
    - exists l. split; auto. revert HL. apply lists_cliques_iff. exact q_neighbor.
  Qed.

  Lemma c128_part : forall order, SomeOrder order -> forall l,
    maximal_cliques veqb order (node_identifiers g) (node_indices_next m (g_s g))
      (neighbors g) (neighbors_next m g) (is_adjacent m g) = Ok l ->
    forall S, Clique (Neighbor m g) nodes S -> exists S', In S' l /\ incl S S'.
  Proof using SO HB.
    intros order HO l HL S (C1 & C2 & C3).
    destruct (c128_cliques order HO) as (l' & E1 & L1 & L2 & _). assert (l' = l) by congruence. subst l'.
    destruct (clique_extends _ cell_dec (spec_neighbors G) nodes q_sym (length nodes) S) as (S' & M & I).
    - lia.
    - split; auto. split; auto. intros a b Ha Hb Hne. apply q_neighbor; auto.
    - apply (maximal_iff _ _ _ _ _ q_neighbor) in M. destruct (L2 S' M) as (S2 & H2 & HP).
      exists S2. split; auto. intros c Hc. eapply Permutation_in; [exact HP|]. auto.
  Qed.
End Lattice.

(** ** How large they are *)

Lemma injective_bound : forall X (f : X -> Z) (k : Z) S, 0 <= k -> NoDup S ->
  (forall a, 0 <= f a < k) -> (forall a b, In a S -> In b S -> f a = f b -> a = b) ->
  Z.of_nat (length S) <= k.
Proof.
  intros X f k S Hk HN HR HI.
  assert (HM : NoDup (map f S)).
  { induction HN as [|a S Ha HN IH]; cbn [map]; constructor.
    - intros H. apply in_map_iff in H. destruct H as (b & E & Hb). apply Ha.
      rewrite <- (HI b a); auto. { right; auto. } { left; auto. }
    - apply IH. intros x y Hx Hy. apply HI; right; auto. }
  rewrite <- (map_length f).
  assert (HL : (length (map f S) <= length (map Z.of_nat (seq 0 (Z.to_nat k))))%nat).
  { apply NoDup_incl_length; auto. intros y Hy. apply in_map_iff in Hy. destruct Hy as (a & <- & _).
    apply in_map_iff. exists (Z.to_nat (f a)). pose proof (HR a). split; [lia|]. apply in_seq. lia. }
  rewrite !map_length, seq_length in HL. rewrite map_length.
  lia.
Qed.

Lemma near : forall A D N E (m : mode) (s : Shape Cell A D) (G : Geometry A D) dist,
  Supported s G -> Distance s G dist ->
  forall (g : LatticeGraph Cell A D N E) nf ef, Built m s G g nf ef ->
  forall S, Clique (Neighbor m g) (geo_nodes G) S ->
  forall a b, In a S -> In b S -> a <> b -> dist a b <= 1.
Proof.
  intros A D N E m s G dist SUP HD g nf ef HB S (C1 & C2 & C3) a b Ha Hb Hne.
  destruct (c63 A D N E m s G dist SUP HD g nf ef HB a b (C2 a Ha) (C2 b Hb)) as [_ H].
  destruct (C3 a b Ha Hb Hne) as (l & HL & HI). change 1 with (Z.of_nat 1). apply H.
  eapply walk_step; [exact HL|exact HI|constructor].
Qed.

Lemma c128_sizes : forall A D N E (m : mode) (s : Shape Cell A D) (G : Geometry A D) dist,
  Supported s G -> Distance s G dist ->
  forall (g : LatticeGraph Cell A D N E) nf ef, Built m s G g nf ef ->
  forall S, Clique (Neighbor m g) (geo_nodes G) S ->
  (dist = taxicab -> Z.of_nat (length S) <= 2) /\
  (dist = hex_axial \/
   (exists b, dist = fun c c' => hex_rows (offset_r_pos b c) (offset_r_pos b c')) ->
   Z.of_nat (length S) <= 3) /\
  (dist = chessboard -> Z.of_nat (length S) <= 4).
Proof.
  intros A D N E m s G dist SUP HD g nf ef HB S HC.
  pose proof (near A D N E m s G dist SUP HD g nf ef HB S HC) as HN.
  assert (HI : forall f : Cell -> Z, (forall a b, dist a b <= 1 -> f a = f b -> a = b) ->
    forall a b, In a S -> In b S -> f a = f b -> a = b).
  { intros f Hf a b Ha Hb E1. destruct (cell_dec a b) as [|Hne]; auto. }
  destruct HC as (C1 & _). split; [|split].
  - intros ->. apply (injective_bound _ (fun c => (fst c + snd c) mod 2)); [lia|auto| |].
    + intros a. apply Z.mod_pos_bound. lia.
    + apply HI. intros [x y] [x' y']. unfold taxicab. cbn [fst snd]. intros H1 H2.
      apply pair_eq; cbn [fst snd]; lia.
  - intros [->|(b & ->)].
    + apply (injective_bound _ (fun c => (fst c - snd c) mod 3)); [lia|auto| |].
      * intros a. apply Z.mod_pos_bound. lia.
      * apply HI. intros [x y] [x' y']. unfold hex_axial. cbn [fst snd]. intros H1 H2.
        apply pair_eq; cbn [fst snd]; lia.
    + apply (injective_bound _ (fun c => fst (offset_r_pos b c) mod 3)); [lia|auto| |].
      * intros a. apply Z.mod_pos_bound. lia.
      * apply HI. intros [x y] [x' y']. unfold hex_rows, offset_r_pos. destruct b; cbn [fst snd]; intros H1 H2;
          apply pair_eq; cbn [fst snd]; lia.
  - intros ->. apply (injective_bound _ (fun c => 2 * (fst c mod 2) + snd c mod 2)); [lia|auto| |].
    + intros a. lia.
    + apply HI. intros [x y] [x' y']. unfold chessboard. cbn [fst snd]. intros H1 H2.
      apply pair_eq; cbn [fst snd]; lia.
Qed.
