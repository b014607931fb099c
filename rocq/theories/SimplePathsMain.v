(** * SimplePathsMain: [all_simple_paths] on the two graphs (C129, C130). *)

From Verif Require Import Machine Store Axes Shapes Lattice SquareGraph Traverse Astar Spec SpecSquare
  Spec4 Spec11 Spec19 Spec21 Basics AxisProofs GeoProofs ShapeProofs StoreProofs GraphProofs RepProofs
  EdgeProofs VisitProofs Main1 TraverseProofs AnySearch AstarProofs SearchProofs SquareProofs SquareIter
  SquareMain SquareSearch AnySearchMain CustomProofs CustomMain FilteredProofs FilteredMain BellmanMain
  KShortestMain SimplePaths Spec26 SimplePathsProofs.
From Coq Require Import ZifyBool ZifyNat.

Section Spec.
  Context {C : Type} (dec : forall a b : C, {a = b} + {a <> b}) (nbs : C -> list C).

  Lemma ways_joined : forall p, (0 < ways dec nbs p)%nat <-> Joined nbs p.
  Proof.
    induction p as [|a [|b p] IH]; [cbn; split; auto; lia|cbn; split; auto; lia|].
    cbn [ways Joined]. cbn [ways Joined] in IH. rewrite <- IH, (count_occ_In dec). nia.
  Qed.

  Lemma lists_in : forall a b lo hi l, ListsPaths dec nbs a b lo hi l ->
    forall p, In p l <-> Simple a b lo hi p /\ Joined nbs p.
  Proof.
    intros a b lo hi l [L1 L2] p. split.
    - intros Hp. pose proof (L1 p Hp) as HS. split; auto. apply ways_joined. rewrite <- (L2 p HS).
      apply count_occ_In. auto.
    - intros [HS HJ]. apply (count_occ_In (list_eq_dec dec)). rewrite (L2 p HS). apply ways_joined in HJ. lia.
  Qed.

  Lemma joined_in : forall nodes, (forall a b, In a nodes -> In b (nbs a) -> In b nodes) ->
    forall p a, In a nodes -> Joined nbs (a :: p) -> incl (a :: p) nodes.
  Proof.
    intros nodes INN. induction p as [|b p IH]; intros a Ha HJ; [intros y [<-|[]]; auto|].
    destruct HJ as [H1 H2]. intros y [<-|Hy]; auto. apply (IH b); auto. eapply INN; eauto.
  Qed.

  Lemma lists_once : forall nodes a b lo hi l, (forall a b, In a nodes -> In b (nbs a) -> In b nodes) ->
    In a nodes -> (forall c, In c nodes -> NoDup (nbs c)) ->
    ListsPaths dec nbs a b lo hi l -> NoDup l.
  Proof.
    intros nodes a b lo hi l INN Ha HN HL. apply (NoDup_count_occ (list_eq_dec dec)). intros p.
    destruct (in_dec (list_eq_dec dec) p l) as [Hp|Hp].
    2:{ rewrite (proj1 (count_occ_not_In _ _ _) Hp). lia. }
    pose proof (proj1 (lists_in _ _ _ _ _ HL p) Hp) as [HS HJ].
    destruct HL as [L1 L2]. rewrite (L2 p HS).
    assert (HI : incl p nodes).
    { destruct HS as (mids & -> & _). apply joined_in; auto. }
    clear - HI HN. induction p as [|x [|y p] IH]; [cbn; lia|cbn; lia|].
    cbn [ways]. cbn [ways] in IH. assert (HI' : incl (y :: p) nodes) by (intros z Hz; apply HI; right; auto).
    specialize (IH HI').
    pose proof (proj1 (NoDup_count_occ dec (nbs x)) (HN x (HI x (or_introl eq_refl))) y). nia.
  Qed.

  (** Between two nodes no path is longer than the board. *)
  Lemma lists_all : forall nodes a b lo l, (forall a b, In a nodes -> In b (nbs a) -> In b nodes) ->
    In a nodes -> a <> b ->
    ListsPaths dec nbs a b lo (Some (Z.max 0 (Z.of_nat (length nodes) - 2))) l ->
    ListsPaths dec nbs a b lo None l.
  Proof.
    intros nodes a b lo l INN Ha Hne [L1 L2]. split.
    - intros p Hp. destruct (L1 p Hp) as (mids & H1 & H2 & H3 & H4 & _). exists mids. auto.
    - intros p (mids & H1 & H2 & H3 & H4 & _).
      destruct (Z_le_gt_dec (Z.of_nat (length mids)) (Z.max 0 (Z.of_nat (length nodes) - 2))) as [H5|H5].
      { apply L2. exists mids. auto 10. }
      assert (HW : ways dec nbs p = 0%nat).
      { destruct (Nat.eq_dec (ways dec nbs p) 0) as [|HW]; auto. exfalso.
        assert (HJ : Joined nbs p) by (apply ways_joined; lia). subst p.
        pose proof (joined_in nodes INN _ _ Ha HJ) as HI.
        assert (HN : NoDup (a :: mids ++ [b])).
        { inversion H2 as [|? ? Ham HN]; subst. constructor.
          - intros H. apply in_app_or in H. destruct H as [H|[H|[]]]; [contradiction|]. congruence.
          - apply (NoDup_Add (a := b) (l := mids)); [|split; auto].
            rewrite <- (app_nil_r mids) at 1. apply Add_app. }
        pose proof (NoDup_incl_length HN HI) as HL. cbn [length] in HL. rewrite app_length in HL.
        cbn [length] in HL. lia. }
      rewrite HW. apply count_occ_not_In. intros Hp. destruct (L1 p Hp) as (mids' & H1' & _ & _ & _ & H6).
      rewrite H1 in H1'. injection H1' as H1'. apply app_inj_tail in H1'. destruct H1' as [<- _]. lia.
  Qed.
End Spec.

Lemma yields_det : forall C It eqb (nb : C -> It) nb_next to mx mn st l,
  Yields eqb nb nb_next to mx mn st l -> forall l', Yields eqb nb nb_next to mx mn st l' -> l = l'.
Proof.
  intros C It eqb nb nb_next to mx mn st l. induction 1 as [st st' HR|st p st' l HR HY IH]; intros l' H'.
  - inversion H' as [s s' HR'|s p s' l0 HR' HY']; subst; auto.
    pose proof (run_det _ _ _ _ _ HR _ HR'). discriminate.
  - inversion H' as [s s' HR'|s p' s' l0 HR' HY']; subst; pose proof (run_det _ _ _ _ _ HR _ HR') as E;
      [discriminate|]. injection E as -> ->. f_equal. auto.
Qed.

Lemma paths_det : forall C It eqb m count (nb : C -> It) nb_next to from lo most l,
  AllSimplePaths eqb m count nb nb_next to from lo most l ->
  forall l', AllSimplePaths eqb m count nb nb_next to from lo most l' -> l = l'.
Proof.
  intros C It eqb m count nb nb_next to from lo most l (mx & mn & E1 & E2 & HY) l' (mx' & mn' & E1' & E2' & HY').
  rewrite E1 in E1'. rewrite E2 in E2'. injection E1' as <-. injection E2' as <-. eapply yields_det; eauto.
Qed.

Section Generic.
  Context {C It : Type} (eqb : C -> C -> bool) (dec : forall a b : C, {a = b} + {a <> b}) (m : mode)
    (count : outcome Z) (nb : C -> It) (nb_next : C -> It -> outcome (option C * It)) (to : C)
    (nodes : list C) (nbs : C -> list C)
    (EQ : forall a b, eqb a b = true <-> a = b)
    (COUNT : count = Ok (Z.of_nat (length nodes))) (FEW : Z.of_nat (length nodes) < USIZE)
    (NB : forall c, In c nodes -> Drains (nb_next c) (nb c) (nbs c))
    (DEG : forall c, In c nodes -> Z.of_nat (length (nbs c)) + 1 < 2 ^ 72)
    (INN : forall a b, In a nodes -> In b (nbs a) -> In b nodes).

  Definition most_fits (most : option Z) : Prop :=
    match most with Some k => 0 <= k < USIZE - 1 | None => True end.

  Lemma all_ok : forall a least most, In a nodes -> 0 <= least < USIZE - 1 -> most_fits most ->
    exists l, AllSimplePaths eqb m count nb nb_next to a least most l /\
      ListsPaths dec nbs a to least
        (match most with Some k => Some k | None => Some (Z.max 0 (Z.of_nat (length nodes) - 2)) end) l.
  Proof.
    intros a least most Ha HL HM.
    assert (HN : (0 < length nodes)%nat) by (destruct nodes; [destruct Ha|cbn; lia]).
    destruct most as [k|].
    - cbn [most_fits] in HM.
      destruct (paths_ok eqb dec nb nb_next to nodes nbs (k + 1) (least + 1) EQ NB DEG INN a Ha) as (l & HY & HP); [lia|].
      exists l. split.
      + exists (k + 1), (least + 1). split; [apply usize_add_ok; lia|]. split; [apply usize_add_ok; lia|auto].
      + replace (Z.max 0 (k + 1 - 1)) with k in HP by lia. replace (least + 1 - 1) with least in HP by lia. auto.
    - destruct (paths_ok eqb dec nb nb_next to nodes nbs (Z.of_nat (length nodes) - 1) (least + 1) EQ NB DEG INN a Ha)
        as (l & HY & HP); [lia|].
      exists l. split.
      + exists (Z.of_nat (length nodes) - 1), (least + 1). split; [|split; [apply usize_add_ok; lia|auto]].
        cbn [path_limit]. rewrite COUNT. cbn [bind]. apply usize_sub_ok. lia.
      + replace (Z.of_nat (length nodes) - 1 - 1) with (Z.of_nat (length nodes) - 2) in HP by lia.
        replace (least + 1 - 1) with least in HP by lia. auto.
  Qed.

  Lemma all_paths : forall a least most, In a nodes -> a <> to -> 0 <= least < USIZE - 1 -> most_fits most ->
    exists l, AllSimplePaths eqb m count nb nb_next to a least most l /\
      ListsPaths dec nbs a to least most l.
  Proof.
    intros a least most Ha Hne HL HM. destruct (all_ok a least most Ha HL HM) as (l & H1 & H2).
    exists l. split; auto. destruct most as [k|]; auto. eapply lists_all; eauto.
  Qed.

  Lemma all_members : forall a least most l, In a nodes -> a <> to -> 0 <= least < USIZE - 1 ->
    most_fits most -> AllSimplePaths eqb m count nb nb_next to a least most l ->
    (forall p, In p l <-> Simple a to least most p /\ Joined nbs p) /\
    ((forall c, In c nodes -> NoDup (nbs c)) -> NoDup l).
  Proof.
    intros a least most l Ha Hne HL HM HA. destruct (all_paths a least most Ha Hne HL HM) as (l' & H1 & H2).
    rewrite (paths_det _ _ _ _ _ _ _ _ _ _ _ _ HA _ H1). split.
    - apply (lists_in dec). auto.
    - intros HN. eapply lists_once; eauto.
  Qed.
End Generic.

Section Lat.
  Context {A D N E : Type} {m : mode} {s : Shape Cell A D} {G : Geometry A D}
    (SO : Sound m s G) (g : LatticeGraph Cell A D N E) (nf : Cell -> N) (ef : Cell -> A -> E)
    (HB : Built m s G g nf ef) (dec : forall a b : Cell, {a = b} + {a <> b}) (nbs : Cell -> list Cell)
    (NB : forall c, In c (geo_nodes G) -> Drains (neighbors_next m g c) (neighbors g c) (nbs c)).
  Notation nodes := (geo_nodes G).

  Lemma v_nbs : forall c, In c nodes -> nbs c = spec_neighbors G c.
  Proof using SO HB NB.
    clear - SO HB NB. intros c Hc. destruct (sound_facts _ _ _ _ _ SO) as ((cell & RF) & RG & _).
    exact (Drains_det _ _ _ _ (NB c Hc) (proj1 (x_c09 RF RG g nf ef c Outgoing HB Hc))).
  Qed.
  Lemma v_deg : forall c, In c nodes -> Z.of_nat (length (nbs c)) + 1 < 2 ^ 72.
  Proof using SO HB NB.
    clear - SO HB NB. intros c Hc. rewrite (v_nbs c Hc). destruct (sound_facts _ _ _ _ _ SO) as (_ & _ & DEG). apply DEG.
  Qed.
  Lemma v_in : forall a b, In a nodes -> In b (nbs a) -> In b nodes.
  Proof using SO HB NB.
    clear - SO HB NB. intros a b Ha Hb. rewrite (v_nbs a Ha) in Hb.
    destruct (sound_facts _ _ _ _ _ SO) as ((cell & RF) & RG & _).
    apply (x_in_spec_neighbors RF RG) in Hb. destruct Hb as (d & Hd). exact (rg_in RG _ _ _ Hd).
  Qed.
  Lemma v_count : node_count m g = Ok (Z.of_nat (length nodes)) /\ Z.of_nat (length nodes) < USIZE.
  Proof using SO HB.
    clear - SO HB. destruct (sound_facts _ _ _ _ _ SO) as ((cell & RF) & RG & _).
    destruct (x_c05 RF RG g nf ef HB) as (_ & H & _). split; auto.
    rewrite (rf_nodes _ _ _ _ RF). pose proof (fits_bounds _ _ (rf_fits _ _ _ _ RF)) as B.
    rewrite IMAX1_val in B. rewrite board_length by lia. rewrite USIZE_val. lia.
  Qed.

  Notation Paths := (AllSimplePaths veqb m (node_count m g) (fun c => neighbors_directed g c Outgoing)
    (neighbors_next m g)).

  Lemma c129_paths : forall a b least most, In a nodes -> a <> b -> 0 <= least < USIZE - 1 ->
    match most with Some k => 0 <= k < USIZE - 1 | None => True end ->
    exists l, Paths b a least most l /\ ListsPaths dec nbs a b least most l.
  Proof using SO HB NB.
    intros a b least most Ha Hne HL HM.
    exact (all_paths veqb dec m _ _ _ b nodes nbs veqb_eq (proj1 v_count) (proj2 v_count) NB v_deg v_in
      a least most Ha Hne HL HM).
  Qed.

  Lemma c129_members : forall a b least most l, In a nodes -> a <> b -> 0 <= least < USIZE - 1 ->
    match most with Some k => 0 <= k < USIZE - 1 | None => True end ->
    Paths b a least most l ->
    (forall p, In p l <-> Simple a b least most p /\ Joined nbs p) /\
    ((forall c, In c nodes -> NoDup (nbs c)) -> NoDup l).
  Proof using SO HB NB.
    intros a b least most l Ha Hne HL HM.
    exact (all_members veqb cell_dec m _ _ _ b nodes nbs veqb_eq (proj1 v_count) (proj2 v_count) NB v_deg v_in
      a least most l Ha Hne HL HM).
  Qed.

  Lemma c129_round : forall a least most, In a nodes -> 0 <= least < USIZE - 1 ->
    match most with Some k => 0 <= k < USIZE - 1 | None => True end ->
    exists l, Paths a a least most l /\
      ListsPaths dec nbs a a least
        (match most with Some k => Some k | None => Some (Z.max 0 (Z.of_nat (length nodes) - 2)) end) l.
  Proof using SO HB NB.
    intros a least most Ha HL HM.
    exact (all_ok veqb dec m _ _ _ a nodes nbs veqb_eq (proj1 v_count) (proj2 v_count) NB v_deg v_in
      a least most Ha HL HM).
  Qed.
End Lat.

Section Sq.
  Context {N E : Type} {ix : IxType} {S : LoopShape} {m : mode} {h v : Z}
    (SZ : sq_size S h v) (FX : sq_index_fits ix h v)
    (g : SquareGraph N E ix S) (nf : NodeIndex -> N) (ef : EdgeIndex -> E)
    (B : SqBuilt m h v g nf ef) (dec : forall a b : NodeIndex, {a = b} + {a <> b}) (nbs : NodeIndex -> list NodeIndex)
    (NB : forall c, on_board h v c ->
      Drains (sg_neighbors_next (ix := ix) (S := S) m) (sg_neighbors g c) (nbs c)).
  Notation nodes := (sq_nodes h v).

  Lemma w_nb : forall c, In c nodes -> Drains (sg_neighbors_next (ix := ix) (S := S) m) (sg_neighbors g c) (nbs c).
  Proof using NB. clear - NB. intros c Hc. apply NB. apply sq_in_nodes; auto. Qed.
  Lemma w_nbs : forall c, In c nodes -> nbs c = sq_neighbours S h v c.
  Proof using SZ FX B NB.
    clear - SZ FX B NB. intros c Hc. apply sq_in_nodes in Hc.
    exact (Drains_det _ _ _ _ (NB c Hc) (proj1 (c44 SZ FX B c Hc))).
  Qed.
  Lemma w_deg : forall c, In c nodes -> Z.of_nat (length (nbs c)) + 1 < 2 ^ 72.
  Proof using SZ FX B NB. clear - SZ FX B NB. intros c Hc. rewrite (w_nbs c Hc). apply sq_degree. Qed.
  Lemma w_in : forall a b, In a nodes -> In b (nbs a) -> In b nodes.
  Proof using SZ FX B NB.
    clear - SZ FX B NB. intros a b Ha Hb. rewrite (w_nbs a Ha) in Hb.
    apply sq_in_nodes in Ha. apply in_neighbours in Hb. destruct Hb as (d & Hd).
    apply sq_in_nodes. eapply neighbour_on_board; eauto.
  Qed.
  Lemma w_few : Z.of_nat (length nodes) < USIZE.
  Proof using SZ.
    clear - SZ. pose proof (sq_nodes_few SZ). rewrite USIZE_val. change (2 ^ 63) with 9223372036854775808 in *. lia.
  Qed.

  Notation Paths := (AllSimplePaths veqb m (Ok (sg_node_count g)) (sg_neighbors g)
    (fun _ => sg_neighbors_next (ix := ix) (S := S) m)).

  Lemma c130_paths : forall a b least most, on_board h v a -> a <> b -> 0 <= least < USIZE - 1 ->
    match most with Some k => 0 <= k < USIZE - 1 | None => True end ->
    exists l, Paths b a least most l /\ ListsPaths dec nbs a b least most l.
  Proof using SZ FX B NB.
    intros a b least most Ha Hne HL HM. apply sq_in_nodes in Ha.
    exact (all_paths veqb dec m _ _ (fun _ => sg_neighbors_next (ix := ix) (S := S) m) b nodes nbs veqb_eq
      (sq_count SZ FX g nf ef B) w_few w_nb w_deg w_in a least most Ha Hne HL HM).
  Qed.

  Lemma c130_members : forall a b least most l, on_board h v a -> a <> b -> 0 <= least < USIZE - 1 ->
    match most with Some k => 0 <= k < USIZE - 1 | None => True end ->
    Paths b a least most l ->
    (forall p, In p l <-> Simple a b least most p /\ Joined nbs p) /\
    ((forall c, on_board h v c -> NoDup (nbs c)) -> NoDup l).
  Proof using SZ FX B NB.
    intros a b least most l Ha Hne HL HM HP. apply sq_in_nodes in Ha.
    destruct (all_members veqb cell_dec m _ _ (fun _ => sg_neighbors_next (ix := ix) (S := S) m) b nodes nbs veqb_eq
      (sq_count SZ FX g nf ef B) w_few w_nb w_deg w_in a least most l Ha Hne HL HM HP) as (H1 & H2).
    split; auto. intros HN. apply H2. intros c Hc. apply HN. apply sq_in_nodes; auto.
  Qed.

  Lemma c130_round : forall a least most, on_board h v a -> 0 <= least < USIZE - 1 ->
    match most with Some k => 0 <= k < USIZE - 1 | None => True end ->
    exists l, Paths a a least most l /\
      ListsPaths dec nbs a a least
        (match most with Some k => Some k | None => Some (Z.max 0 (h * v - 2)) end) l.
  Proof using SZ FX B NB.
    intros a least most Ha HL HM. apply sq_in_nodes in Ha. rewrite <- (sq_nodes_length SZ).
    exact (all_ok veqb dec m _ _ (fun _ => sg_neighbors_next (ix := ix) (S := S) m) a nodes nbs veqb_eq
      (sq_count SZ FX g nf ef B) w_few w_nb w_deg w_in a least most Ha HL HM).
  Qed.
End Sq.
