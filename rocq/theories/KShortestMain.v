(** * KShortestMain: [k_shortest_path] on [LatticeGraph] and on [SquareGraph] (C126, C127). *)

From Verif Require Import Machine Store Axes Shapes Lattice SquareGraph Traverse Clients Astar
  Dijkstra Filtered Spec SpecSquare Spec4 Spec6 Spec11 Spec19 Spec21 Basics AxisProofs GeoProofs
  ShapeProofs StoreProofs GraphProofs RepProofs EdgeProofs VisitProofs Main1 DistProofs TraverseProofs AnySearch AstarProofs
  SearchProofs SquareProofs SquareIter SquareMain SquareSearch ClientsProofs ClientsMain
  AnySearchMain AstarMain DijkstraProofs DijkstraMain CustomProofs CustomMain FilteredProofs FilteredMain
  Bellman BellmanProofs BellmanMain KShortest Spec24 KShortestProofs.
From Coq Require Import ZifyBool ZifyNat.

Section Graph.
  Context {C Ed It : Type} (edges : C -> outcome It) (next : It -> outcome (option Ed * It))
    (target : Ed -> outcome C) (cost : Ed -> Z) (nodes : list C) (out : C -> list Ed) (tgt : Ed -> C)
    (ED : forall c, In c nodes -> exists it, edges c = Ok it /\ Drains next it (out c))
    (TGT : forall c e, In c nodes -> In e (out c) -> target e = Ok (tgt e))
    (INN : forall c e, In c nodes -> In e (out c) -> In (tgt e) nodes).

  Lemma taken_iff : forall a w x b, In a nodes ->
    GW tgt cost out a w x b <-> Taken edges next target cost a w x b.
  Proof.
    intros a w x b Ha. split; intros HW; revert Ha.
    - induction HW as [c|a i e w x b He HW IH]; intros Ha; [constructor|].
      pose proof (nth_error_In _ _ He) as Hi. destruct (ED a Ha) as (it & E1 & D1).
      eapply taken_next; eauto.
    - induction HW as [c|a it l i e t w x b Ha' HD He Ht HW IH]; intros Ha; [constructor|].
      destruct (ED a Ha) as (it' & E1 & D1). rewrite Ha' in E1. injection E1 as <-.
      pose proof (Drains_det _ _ _ _ HD D1) as ->. pose proof (nth_error_In _ _ He) as Hi.
      rewrite (TGT a e Ha Hi) in Ht. injection Ht as <-. constructor; eauto.
  Qed.
End Graph.

Lemma kth_iff : forall C (walk walk' : C -> list nat -> Z -> Prop) goal k r,
  (forall c w y, walk c w y <-> walk' c w y) -> KthCosts walk goal k r -> KthCosts walk' goal k r.
Proof.
  intros C walk walk' goal k r HE [H1 H2]. split.
  - intros c x Hx. destruct (H1 c x Hx) as (l & L1 & L2 & L3 & (w0 & L4 & L5) & L6).
    exists l. split; auto. split; auto. split; [|split].
    + intros w Hw. destruct (L3 w Hw) as (y & Y1 & Y2). exists y. split; auto. apply HE; auto.
    + exists w0. split; auto. apply HE; auto.
    + intros w y Hw. apply L6. apply HE; auto.
  - intros Hg c Hc l ND HA. apply (H2 Hg c Hc l ND). intros w Hw. destruct (HA w Hw) as (y & Hy).
    exists y. apply HE; auto.
Qed.

Lemma run_det : forall S R (body : S -> outcome (S + R)) st r, Returns body st r ->
  forall r', Returns body st r' -> r = r'.
Proof.
  intros S R body st r. induction 1 as [s r E|s s' r E HR IH]; intros r' H'.
  - inversion H'; congruence.
  - inversion H' as [s0 r0 E'|s0 s1 r0 E' HR']; subst; [congruence|]. rewrite E in E'. injection E' as <-. auto.
Qed.

(** ** Walks round and round *)

Section Round.
  Context {C Ed It : Type} (edges : C -> outcome It) (next : It -> outcome (option Ed * It))
    (target : Ed -> outcome C) (cost : Ed -> Z).
  Notation taken := (Taken edges next target cost).
  Notation route := (Route edges next target cost).

  Lemma taken_app : forall a w x b, taken a w x b -> forall w' x' c, taken b w' x' c ->
    taken a (w ++ w') (x + x') c.
  Proof.
    induction 1 as [c|a it l i e t w x b Ha HD He Ht HW IH]; intros w' x' d HW'; [exact HW'|].
    cbn [app]. rewrite <- Z.add_assoc. eapply taken_next; eauto.
  Qed.

  Lemma route_taken : forall a p x b, route a p x b -> exists w, taken a w x b /\ length p = S (length w).
  Proof.
    induction 1 as [c|a e t p x b He Ht HR (w & IH & HL)].
    - exists []. split; [constructor|reflexivity].
    - destruct He as (it & l & E1 & D1 & Hi). apply In_nth_error in Hi. destruct Hi as (i & Hi).
      exists (i :: w). split; [eapply taken_next; eauto|cbn [length]; lia].
  Qed.

  Lemma taken_route : forall a w x b, taken a w x b -> exists p, route a p x b.
  Proof.
    induction 1 as [c|a it l i e t w x b Ha HD He Ht HW (p & IH)]; [exists [c]; constructor|].
    exists (a :: p). econstructor; eauto. exists it, l. split; auto. split; auto. eapply nth_error_In; eauto.
  Qed.

  Lemma taken_round : forall a z y, taken a z y a -> forall j, exists x,
    taken a (concat (repeat z j)) x a.
  Proof.
    intros a z y HZ j. induction j as [|j (x & IH)]; [exists 0; constructor|].
    cbn [repeat concat]. exists (y + x). eapply taken_app; eauto.
  Qed.

  Lemma round_length : forall (z : list nat) j, length (concat (repeat z j)) = (j * length z)%nat.
  Proof. intros z j. induction j as [|j IH]; [reflexivity|]. cbn [repeat concat]. rewrite app_length. lia. Qed.

  Lemma many_walks : forall start z y w x c k, taken start z y start -> z <> [] ->
    taken start w x c -> 0 <= k -> ~ FewerThan (fun w y => taken start w y c) k.
  Proof.
    intros start z y w x c k HZ NZ HW HK HF.
    set (l := map (fun j => concat (repeat z j) ++ w) (seq 0 (Z.to_nat k))).
    assert (Hl : (length l = Z.to_nat k)%nat) by (unfold l; rewrite map_length, seq_length; auto).
    assert (Z.of_nat (length l) < k); [|lia]. apply HF.
    - unfold l. apply FinFun.Injective_map_NoDup; [|apply seq_NoDup].
      intros i j Hij. apply app_inv_tail in Hij. apply (f_equal (@length nat)) in Hij.
      rewrite !round_length in Hij. destruct z as [|i0 z]; [congruence|]. cbn [length] in Hij. nia.
    - intros w' Hw'. unfold l in Hw'. apply in_map_iff in Hw'. destruct Hw' as (j & <- & _).
      destruct (taken_round _ _ _ HZ j) as (x' & HR). exists (x' + x). eapply taken_app; eauto.
  Qed.

  (** If edges can be taken back, every node that can be reached has as many walks as one likes. *)
  Lemma back_many : forall start e t k r, EdgeAt edges next start e -> target e = Ok t ->
    (forall p x b, route start p x b -> exists q x', route b q x' start) -> 0 <= k ->
    KthCosts (fun c w y => taken start w y c) None k r ->
    1 <= k -> forall c, r c <> None <-> exists p x, route start p x c.
  Proof.
    intros start e t k r He Ht HB HK [K1 K2] HK1 c. split.
    - intros Hr. destruct (r c) as [x|] eqn:Er; [|congruence].
      destruct (K1 c x Er) as (l & _ & _ & _ & (w & _ & Hw) & _). apply taken_route in Hw.
      destruct Hw as (p & Hp). exists p, x. auto.
    - intros (p & x & HR) Hn. destruct (route_taken _ _ _ _ HR) as (w & HW & _).
      pose proof (route_one edges next target cost start e t He Ht) as H1.
      destruct (HB _ _ _ H1) as (q & x' & H2). destruct (route_heads _ _ _ _ _ _ _ _ H2) as (q' & ->).
      pose proof (route_join _ _ _ _ _ _ _ _ H1 _ _ _ H2) as H3.
      destruct (route_taken _ _ _ _ H3) as (z & HZ & HL).
      refine (many_walks start z _ w x c k HZ _ HW HK (K2 I c Hn)).
      intros ->. rewrite app_length in HL. cbn in HL. lia.
  Qed.
End Round.

(** ** [LatticeGraph] *)

Section Lat.
  Context {A D N E : Type} {m : mode} {s : Shape Cell A D} {G : Geometry A D}
    (SO : Sound m s G) (g : LatticeGraph Cell A D N E) (nf : Cell -> N) (ef : Cell -> A -> E)
    (HB : Built m s G g nf ef) (H : HeapOps Cell) (HOK : HeapOK H).
  Notation nodes := (geo_nodes G).
  Notation target := (fun e : EdgeReference Cell E D => Ok (er_target e)).
  Notation out := (spec_edges G ef).
  Notation init := (kshortest_init H (node_count m g)).
  Notation round cost goal k := (kshortest_round veqb H (to_index m g) (edges m g) (edges_next m g)
    target cost goal k).

  Lemma c126_costs : forall cost goal k start, (forall a e, In a nodes -> EdgeAt (edges m g) (edges_next m g) a e -> 0 <= cost e) ->
    1 <= k -> In start nodes ->
    exists st r, init start = Ok st /\ Returns (round cost goal k) st r /\
      KthCosts (fun c w y => Taken (edges m g) (edges_next m g) target cost start w y c) goal k r.
  Proof using SO HB HOK.
    intros cost goal k start NN0 K Hs.
    assert (NN : forall c e, In c nodes -> In e (out c) -> 0 <= cost e).
    { intros c e Hc He. apply (NN0 c e Hc).
      apply (edge_at_out (edges m g) (edges_next m g) nodes out (f_edges SO g nf ef HB)); auto. }
    destruct (sound_facts _ _ _ _ _ SO) as ((cell & RF) & RG & _).
    destruct (x_c05 RF RG g nf ef HB) as (B1 & B2 & _ & B4).
    destruct (kshortest_ok veqb H (node_count m g) (to_index m g) (edges m g) (edges_next m g) target
      cost goal k nodes out er_target cell_dec veqb_eq HOK B2
      (fun i c H => proj1 (B4 i c H)) (f_edges SO g nf ef HB) (f_deg SO ef) (f_tgt ef) (f_in SO ef)
      NN K start Hs) as (st & r & R0 & R1 & R2).
    exists st, r. split; [exact R0|]. split; [exact R1|]. refine (kth_iff _ _ _ _ _ _ _ R2).
    intros c w y. exact (taken_iff (edges m g) (edges_next m g) target cost nodes out er_target
      (f_edges SO g nf ef HB) (f_tgt ef) (f_in SO ef) start w y c Hs).
  Qed.

  Lemma c126_undirected : ag_directed (geo_ax G) = false ->
    forall cost k start, (forall a e, In a nodes -> EdgeAt (edges m g) (edges_next m g) a e -> 0 <= cost e) ->
    1 <= k -> In start nodes -> (exists e, EdgeAt (edges m g) (edges_next m g) start e) ->
    forall st r, init start = Ok st -> Returns (round cost None k) st r ->
    forall c, r c <> None <-> exists p x, Route (edges m g) (edges_next m g) target cost start p x c.
  Proof using SO HB HOK.
    intros UD cost k start NN K Hs (e & He) st r Hst HR.
    destruct (c126_costs cost None k start NN K Hs) as (st' & r' & R0 & R1 & R2).
    rewrite Hst in R0. injection R0 as <-. pose proof (run_det _ _ _ _ _ HR _ R1) as ->.
    refine (back_many (edges m g) (edges_next m g) target cost start e (er_target e) k r' He eq_refl _ _ R2 K); [|lia].
    intros p x b HW. assert (HW0 : exists x0, Route (edges m g) (edges_next m g) target (fun _ => 0) start p x0 b).
    { clear - HW. induction HW as [c|a e t p k b He Ht HW (x0 & IH)]; [exists 0; constructor|].
      exists (0 + x0). refine (route_step _ _ _ (fun _ => 0) _ _ _ _ _ _ He Ht IH). }
    destruct HW0 as (x0 & HW0). apply along_route in HW0.
    pose proof (c119_back SO g nf ef HB (fun _ => true) (fun _ : E => 0) UD start p x0 b Hs HW0) as HQ.
    apply along_route in HQ. exists (rev p).
    remember (rev p) as q eqn:EQ. clear - HQ.
    induction HQ as [c|a e t q k b He Ht HW (x' & IH)]; [exists 0; constructor|].
    exists (cost e + x'). econstructor; eauto.
  Qed.

  Lemma c126_zero : forall cost goal start, In start nodes ->
    exists st, init start = Ok st /\ Returns (round cost goal 0) st (fun _ => None).
  Proof using SO HB HOK.
    intros cost goal start Hs. destruct (sound_facts _ _ _ _ _ SO) as ((cell & RF) & RG & _).
    destruct (x_c05 RF RG g nf ef HB) as (B1 & B2 & _ & B4).
    exact (kshortest_zero _ _ _ veqb H (node_count m g) (to_index m g) (edges m g) (edges_next m g) target
      cost goal nodes start HOK B2 (fun i c H => proj1 (B4 i c H)) Hs).
  Qed.
End Lat.

(** ** [SquareGraph] *)

Section Sq.
  Context {N E : Type} {ix : IxType} {S : LoopShape} {m : mode} {h v : Z}
    (SZ : sq_size S h v) (FX : sq_index_fits ix h v)
    (g : SquareGraph N E ix S) (nf : NodeIndex -> N) (ef : EdgeIndex -> E)
    (B : SqBuilt m h v g nf ef) (H : HeapOps NodeIndex) (HOK : HeapOK H).
  Notation nodes := (sq_nodes h v).
  Notation edges := (fun n => Ok (sg_edges g n)).
  Notation next := (sg_edges_next m g).
  Notation target := (sr_target (ix := ix) (S := S) (E := E) m).
  Notation out := (sq_out (S := S) (h := h) (v := v) ef).
  Notation tgt := (sq_tgt (ix := ix) (S := S) (m := m)).
  Notation init := (kshortest_init H (Ok (sg_node_count g))).
  Notation round cost goal k := (kshortest_round veqb H (sg_to_index m g) edges next target cost goal k).

  Lemma sq_count : Ok (sg_node_count g) = Ok (Z.of_nat (length nodes)).
  Proof using SZ FX B.
    destruct (c42 SZ FX B) as (C1 & C2 & C3 & C4). rewrite C2. f_equal. symmetry. exact (sq_nodes_length SZ).
  Qed.
  Lemma sq_idx : forall i c, nth_error nodes i = Some c -> sg_to_index m g c = Ok (Z.of_nat i).
  Proof using SZ FX B.
    destruct (c43_order SZ B) as (O1 & O2 & O3). destruct (c42 SZ FX B) as (C1 & C2 & C3 & C4).
    intros i c Hi. assert (Hc : on_board h v c) by (apply O2; eapply nth_error_In; eauto).
    destruct (C3 c Hc) as (j & J1 & J2 & J3). rewrite (O3 _ _ Hi) in J1. injection J1 as <-. auto.
  Qed.

  Lemma c127_costs : forall cost goal k start, (forall a e, on_board h v a -> EdgeAt edges next a e -> 0 <= cost e) ->
    1 <= k -> on_board h v start ->
    exists st r, init start = Ok st /\ Returns (round cost goal k) st r /\
      KthCosts (fun c w y => Taken edges next target cost start w y c) goal k r.
  Proof using SZ FX B HOK.
    intros cost goal k start NN0 K Hs0. pose proof (proj2 (sq_in_nodes _) Hs0) as Hs.
    assert (NN : forall c e, In c nodes -> In e (out c) -> 0 <= cost e).
    { intros c e Hc He. apply (NN0 c e (proj1 (sq_in_nodes _) Hc)).
      apply (edge_at_out edges next nodes out (sqa_edges SZ FX g nf ef B)); auto. }
    destruct (kshortest_ok veqb H (Ok (sg_node_count g)) (sg_to_index m g) edges next target
      cost goal k nodes out tgt cell_dec veqb_eq HOK sq_count sq_idx
      (sqa_edges SZ FX g nf ef B) (sqa_degree ef) (s_tgt SZ FX ef) (sqa_in SZ FX ef)
      NN K start Hs) as (st & r & R0 & R1 & R2).
    exists st, r. split; [exact R0|]. split; [exact R1|]. refine (kth_iff _ _ _ _ _ _ _ R2).
    intros c w y. exact (taken_iff edges next target cost nodes out tgt
      (sqa_edges SZ FX g nf ef B) (s_tgt SZ FX ef) (sqa_in SZ FX ef) start w y c Hs).
  Qed.

  Lemma c127_map : forall cost k start,
    (forall a e, on_board h v a -> EdgeAt edges next a e -> 0 <= cost e) ->
    1 <= k -> on_board h v start -> (exists e, EdgeAt edges next start e) ->
    forall st r, init start = Ok st -> Returns (round cost None k) st r ->
    forall c, r c <> None <-> exists p x, Route edges next target cost start p x c.
  Proof using SZ FX B HOK.
    intros cost k start NN K Hs0 (e & He) st r Hst HR. pose proof (proj2 (sq_in_nodes _) Hs0) as Hs.
    destruct (c127_costs cost None k start NN K Hs0) as (st' & r' & R0 & R1 & R2).
    rewrite Hst in R0. injection R0 as <-. pose proof (run_det _ _ _ _ _ HR _ R1) as ->.
    assert (Ht : target e = Ok (tgt e)).
    { apply (s_tgt SZ FX ef start e Hs). apply (edge_at_out edges next nodes out (sqa_edges SZ FX g nf ef B)) in He; auto. }
    refine (back_many edges next target cost start e (tgt e) k r' He Ht _ _ R2 K); [|lia].
    intros p x b HW. assert (HW0 : exists x0, Route edges next target (fun _ => 0) start p x0 b).
    { clear - HW. induction HW as [c|a e t p k b He Ht HW (x0 & IH)]; [exists 0; constructor|].
      exists (0 + x0). refine (route_step _ _ _ (fun _ => 0) _ _ _ _ _ _ He Ht IH). }
    destruct HW0 as (x0 & HW0). apply along_route in HW0.
    pose proof (c121_back SZ FX g nf ef B (fun _ _ => true) (fun _ _ => 0) start p x0 b Hs0 HW0) as HQ.
    apply along_route in HQ. exists (rev p).
    remember (rev p) as q eqn:EQ. clear - HQ.
    induction HQ as [c|a e t q k b He Ht HW (x' & IH)]; [exists 0; constructor|].
    exists (cost e + x'). econstructor; eauto.
  Qed.

  Lemma c127_zero : forall cost goal start, on_board h v start ->
    exists st, init start = Ok st /\ Returns (round cost goal 0) st (fun _ => None).
  Proof using SZ FX B HOK.
    intros cost goal start Hs0. pose proof (proj2 (sq_in_nodes _) Hs0) as Hs.
    exact (kshortest_zero _ _ _ veqb H (Ok (sg_node_count g)) (sg_to_index m g) edges next target
      cost goal nodes start HOK sq_count sq_idx Hs).
  Qed.
End Sq.
