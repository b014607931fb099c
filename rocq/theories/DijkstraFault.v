(** * DijkstraFault: shortest paths where an edge leads off the board. *)

From Verif Require Import Machine Store Axes Shapes Lattice Traverse Astar Dijkstra Spec SpecSquare
  Spec4 Spec6 Spec11 Basics AxisProofs GeoProofs ShapeProofs StoreProofs GraphProofs RepProofs VisitProofs Main1
  TraverseProofs SearchProofs AnySearch AnySearchMain AstarProofs
  AstarMain DijkstraProofs DijkstraMain Follow.
From Coq Require Import ZifyBool ZifyNat Permutation.

Section Generic.
  Context {C Ed It VM : Type} (eqb : C -> C -> bool) (H : HeapOps C) (HOK : HeapOK H)
    (edges : C -> outcome It) (edges_next : It -> outcome (option Ed * It))
    (tgt : Ed -> C) (cost : Ed -> Z)
    (visit : VM -> C -> outcome (bool * VM)) (visited : VM -> C -> outcome bool)
    (dec : forall a b : C, {a = b} + {a <> b}) (Heqb : forall a b, eqb a b = true <-> a = b)
    (board : list C) (out : C -> list Ed) (VR : VM -> list C -> Prop) (f : fault)
    (Hout : forall c, In c board -> exists it, edges c = Ok it /\ Drains edges_next it (out c))
    (Hsize : forall c, In c board -> Z.of_nat (length (out c)) + 1 < 2 ^ 72)
    (Hoff : forall c e, In c board -> In e (out c) -> ~ In (tgt e) board ->
       (forall vm, visited vm (tgt e) = Ok false) /\ edges (tgt e) = Fail f)
    (Hvisit : forall vm M c, VR vm M -> In c board ->
       exists b vm', visit vm c = Ok (b, vm') /\ (b = true <-> ~ In c M) /\ VR vm' (c :: M))
    (Hvisited : forall vm M c, VR vm M -> In c board ->
       exists b, visited vm c = Ok b /\ (b = true <-> In c M))
    (start : C) (Hstart : In start board).

  Notation target := (fun e => Ok (tgt e)).
  Notation round := (dijkstra_round eqb H edges edges_next target cost visit visited None).
  Notation relax := (dijkstra_relax eqb H target cost visited).

  Definition off (c : C) : Prop := (forall vm, visited vm c = Ok false) /\ edges c = Fail f.

  Definition scored (sc : C -> option Z) (c : C) : Prop := sc c <> None.

  Lemma scored_insert : forall sc k v c, scored (map_insert eqb sc k v) c <-> c = k \/ scored sc c.
  Proof.
    intros sc k v c. unfold scored, map_insert. destruct (eqb c k) eqn:Ek.
    - apply Heqb in Ek. subst. split; [auto|intros _; discriminate].
    - split; auto. intros [->|Hc]; auto. rewrite (proj2 (Heqb k k) eq_refl) in Ek. discriminate.
  Qed.

  Definition heaped (q : list (Z * C)) (c : C) : Prop := exists k, In (k, c) q.

  Lemma heaped_push : forall x q c, heaped (heap_push H x q) c <-> c = snd x \/ heaped q c.
  Proof using HOK.
    intros [k0 c0] q c. destruct HOK as [HP _]. specialize (HP (k0, c0) q). cbn [snd]. split.
    - intros (k & Hk). apply (Permutation_in _ HP) in Hk. destruct Hk as [[= <- <-]|Hk]; auto.
      right. exists k. auto.
    - intros [->|(k & Hk)].
      + exists k0. apply (Permutation_in _ (Permutation_sym HP)). left; auto.
      + exists k. apply (Permutation_in _ (Permutation_sym HP)). right; auto.
  Qed.

  Definition fine (c : C) : Prop := In c board \/ off c.

  Lemma relax_all : forall vm M k, VR vm M -> forall l q sc,
    (forall e, In e l -> fine (tgt e)) ->
    (forall c, In c M -> scored sc c) ->
    exists q' sc', fold_outcome (relax vm k) l (q, sc) = Ok (q', sc') /\
      (forall c, scored sc' c -> scored sc c \/ heaped q' c) /\
      (forall c, scored sc c -> scored sc' c) /\
      (forall c, heaped q c -> heaped q' c) /\
      (forall c, heaped q' c -> heaped q c \/ (fine c /\ scored sc' c)) /\
      (forall e, In e l -> scored sc' (tgt e)).
  Proof using HOK Heqb Hvisited.
    intros vm M k HV. induction l as [|e l IH]; intros q sc HF HM.
    - exists q, sc. cbn [fold_outcome]. repeat split; auto. intros e [].
    - assert (HF' : forall e, In e l -> fine (tgt e)) by (intros; apply HF; right; auto).
      assert (HV1 : exists b, visited vm (tgt e) = Ok b /\ (b = true -> In (tgt e) M)).
      { destruct (HF e (or_introl eq_refl)) as [Hb|[Ho _]].
        - destruct (Hvisited vm M (tgt e) HV Hb) as (b & E1 & E2). exists b. split; auto. apply E2.
        - exists false. split; auto. discriminate. }
      destruct HV1 as (b & E1 & E2). cbn [fold_outcome].
      assert (STEP : exists q1 sc1, relax vm k (q, sc) e = Ok (q1, sc1) /\
        (forall c, scored sc1 c -> scored sc c \/ heaped q1 c) /\
        (forall c, scored sc c -> scored sc1 c) /\
        (forall c, heaped q c -> heaped q1 c) /\
        (forall c, heaped q1 c -> heaped q c \/ (fine c /\ scored sc1 c)) /\ scored sc1 (tgt e)).
      { unfold dijkstra_relax. cbn [bind]. rewrite E1. cbn [bind fst snd]. destruct b.
        - exists q, sc. repeat split; auto.
        - assert (IMP : forall v, exists q1 sc1,
            Ok (heap_push H (v, tgt e) q, map_insert eqb sc (tgt e) v) = Ok (q1, sc1) /\
            (forall c, scored sc1 c -> scored sc c \/ heaped q1 c) /\
            (forall c, scored sc c -> scored sc1 c) /\
            (forall c, heaped q c -> heaped q1 c) /\
            (forall c, heaped q1 c -> heaped q c \/ (fine c /\ scored sc1 c)) /\ scored sc1 (tgt e)).
          { intros v. exists (heap_push H (v, tgt e) q), (map_insert eqb sc (tgt e) v).
            split; auto. split; [|split; [|split; [|split]]].
            - intros c Hc. apply scored_insert in Hc. destruct Hc as [->|Hc]; auto.
              right. apply heaped_push. auto.
            - intros c Hc. apply scored_insert. auto.
            - intros c Hc. apply heaped_push. auto.
            - intros c Hc. apply heaped_push in Hc. cbn [snd] in Hc. destruct Hc as [->|Hc]; auto.
              right. split; [apply HF; left; auto|apply scored_insert; auto].
            - apply scored_insert. auto. }
          destruct (sc (tgt e)) as [old|] eqn:Eo; [|apply IMP].
          destruct (k + cost e <? old); [apply IMP|]. exists q, sc. repeat split; auto.
          unfold scored. rewrite Eo. discriminate. }
      destruct STEP as (q1 & sc1 & S1 & S2 & S3 & S4 & S5 & S6). rewrite S1. cbn [bind].
      destruct (IH q1 sc1 HF') as (q2 & sc2 & R1 & R2 & R3 & R4 & R5 & R6); [auto|].
      exists q2, sc2. split; auto. split; [|split; [|split; [|split]]].
      + intros c Hc. destruct (R2 c Hc) as [Hc1|Hc1]; auto. destruct (S2 c Hc1); auto.
      + auto.
      + auto.
      + intros c Hc. destruct (R5 c Hc) as [Hc1|Hc1]; auto.
        destruct (S5 c Hc1) as [|[]]; auto.
      + intros e' [<-|He]; auto.
  Qed.

  Record Inv (M : list C) (st : DState) : Prop := {
    iv_vm : VR (d_visited st) M;
    iv_nodup : NoDup M;
    iv_in : incl M board;
    iv_heap : forall c, heaped (d_heap st) c -> fine c;
    iv_pushed : forall c, heaped (d_heap st) c -> scored (d_scores st) c;
    iv_scored : forall c, scored (d_scores st) c -> In c M \/ heaped (d_heap st) c;
    iv_marked : forall c, In c M -> scored (d_scores st) c;
    iv_closed : forall c e, In c M -> In e (out c) -> scored (d_scores st) (tgt e);
    iv_start : scored (d_scores st) start }.

  Lemma round_ok : (exists t, Followed edges edges_next tgt start t /\ ~ In t board) ->
    forall M st, Inv M st ->
    round st = Fail f \/
    exists M' st', round st = Ok (inl st') /\ Inv M' st' /\
      ((length M' = length M /\ (length (d_heap st') < length (d_heap st))%nat) \/
       length M' = S (length M)).
  Proof using HOK Heqb Hout Hsize Hoff Hvisit Hvisited Hstart dec.
    intros (t & Ht & Hn) M st [I1 I2 I3 I4 IP I5 I6 I7 I8]. unfold dijkstra_round.
    destruct HOK as [_ HP]. specialize (HP (d_heap st)).
    destruct (heap_pop H (d_heap st)) as [[[k n] q]|] eqn:Ep.
    - destruct HP as [HP _].
      assert (HQ : forall c, heaped (d_heap st) c <-> c = n \/ heaped q c).
      { intros c. split.
        - intros (k' & Hk). apply (Permutation_in _ HP) in Hk.
          destruct Hk as [[= <- <-]|Hk]; auto. right. exists k'. auto.
        - intros [->|(k' & Hk)].
          + exists k. apply (Permutation_in _ (Permutation_sym HP)). left; auto.
          + exists k'. apply (Permutation_in _ (Permutation_sym HP)). right; auto. }
      assert (HL : length (d_heap st) = S (length q)).
      { rewrite (Permutation_length HP). reflexivity. }
      destruct (I4 n (proj2 (HQ n) (or_introl eq_refl))) as [Hb|[Ho1 Ho2]].
      + destruct (Hvisited _ M n I1 Hb) as (b & E1 & E2). rewrite E1. cbn [bind].
        destruct b.
        * right. exists M. eexists. split; [reflexivity|]. split.
          -- constructor; cbn [d_visited d_heap d_scores]; auto.
             ++ intros c Hc. apply I4. apply HQ. auto.
             ++ intros c Hc. apply IP. apply HQ. auto.
             ++ intros c Hc. destruct (I5 c Hc) as [|Hh]; auto. apply HQ in Hh.
                destruct Hh as [->|Hh]; auto. left. apply E2. auto.
          -- left. cbn [d_heap]. split; auto. lia.
        * assert (HnM : ~ In n M) by (intros Hi; apply E2 in Hi; discriminate).
          destruct (Hout n Hb) as (it & E3 & D3). rewrite E3. cbn [bind].
          rewrite (for_each_exact _ _ _ _ _ _ _ _ D3 (Hsize n Hb)).
          destruct (relax_all (d_visited st) M k I1 (out n) q (d_scores st))
            as (q' & sc' & R1 & R2 & R3 & R4 & R5 & R6); auto.
          { intros e He. destruct (in_dec dec (tgt e) board) as [Hi|Hi]; [left; auto|right].
            apply (Hoff n e Hb He Hi). }
          rewrite R1. cbn [bind].
          destruct (Hvisit _ M n I1 Hb) as (b & vm' & E4 & _ & V4). rewrite E4. cbn [bind].
          right. exists (n :: M). eexists. split; [reflexivity|]. split; [|right; reflexivity].
          constructor; cbn [d_visited d_heap d_scores]; auto.
          -- constructor; auto.
          -- intros c [<-|Hc]; auto.
          -- intros c Hc. destruct (R5 c Hc) as [Hc1|[Hc1 _]]; auto. apply I4. apply HQ. auto.
          -- intros c Hc. destruct (R5 c Hc) as [Hc1|[_ Hc1]]; auto. apply R3. apply IP.
             apply HQ. auto.
          -- intros c Hc. destruct (R2 c Hc) as [Hc1|Hc1]; auto.
             destruct (I5 c Hc1) as [Hc2|Hc2]; [left; right; auto|]. apply HQ in Hc2.
             destruct Hc2 as [->|Hc2]; [left; left; auto|right; auto].
          -- intros c [<-|Hc]; auto. apply R3. apply IP. apply HQ. auto.
          -- intros c e [<-|Hc] He; auto. apply R3. eauto.
      + left. rewrite Ho1. cbn [bind]. rewrite Ho2. reflexivity.
    - exfalso. subst. rewrite HP in *.
      assert (HS : forall c, scored (d_scores st) c -> In c M).
      { intros c Hc. destruct (I5 c Hc) as [|(k & [])]; auto. }
      apply Hn. apply I3. clear Hn.
      induction Ht as [|b it l it' r Hf IH He HC Hr]; [auto|].
      destruct (Hout b (I3 b IH)) as (it2 & E2 & D2). rewrite He in E2. injection E2 as <-.
      apply HS. apply (I7 b); auto. eapply consumed_prefix; eauto.
  Qed.

  Lemma faults_from : (exists t, Followed edges edges_next tgt start t /\ ~ In t board) ->
    forall n k M st, Inv M st -> (length board - length M <= n)%nat ->
    (length (d_heap st) <= k)%nat -> Faults round f st.
  Proof using HOK Heqb Hout Hsize Hoff Hvisit Hvisited Hstart dec.
    intros HT. induction n as [n IHn] using lt_wf_ind. induction k as [k IHk] using lt_wf_ind.
    intros M st HI Hn Hk.
    destruct (round_ok HT M st HI) as [Hr|(M' & st' & Hr & HI' & HL)]; [constructor; auto|].
    apply (faults_later _ _ _ _ Hr).
    pose proof (NoDup_incl_length (iv_nodup _ _ HI') (iv_in _ _ HI')) as HB'.
    destruct HL as [[H1 H2]|H1].
    - apply (IHk (length (d_heap st'))) with (M := M'); auto; lia.
    - apply (IHn (length board - length M')%nat) with (k := length (d_heap st')) (M := M'); auto.
      lia.
  Qed.

  Lemma dijkstra_faults : forall fresh, VR fresh [] ->
    (exists t, Followed edges edges_next tgt start t /\ ~ In t board) ->
    Faults round f (dijkstra_init eqb H fresh start).
  Proof using HOK Heqb Hout Hsize Hoff Hvisit Hvisited Hstart dec.
    intros fresh HV HT. eapply faults_from with (M := []); auto.
    assert (HH : forall c, heaped (heap_push H (0, start) []) c -> c = start).
    { intros c Hc. apply heaped_push in Hc. destruct Hc as [->|(k & [])]. reflexivity. }
    assert (HS : forall c, scored (map_insert eqb (fun _ => None) start 0) c <-> c = start).
    { intros c. rewrite scored_insert. split; auto. intros [|Hc]; auto. destruct Hc; auto. }
    constructor; cbn [d_visited d_heap d_scores dijkstra_init].
    - auto.
    - constructor.
    - intros c [].
    - intros c Hc. apply HH in Hc. subst. left. auto.
    - intros c Hc. apply HH in Hc. apply HS. auto.
    - intros c Hc. apply HS in Hc. subst. right. apply heaped_push. auto.
    - intros c [].
    - intros c e [].
    - apply HS. reflexivity.
  Qed.
End Generic.

Lemma c99_dijkstra : forall (A D N E : Type) (m : mode) (s : Shape Cell A D) (G : Geometry A D),
  Traversable s G ->
  forall (g : LatticeGraph Cell A D N E) nf ef, Built m s G g nf ef ->
  forall H, HeapOK H -> forall cost start t, In start (geo_nodes G) ->
  Followed (edges m g) (edges_next m g) (@er_target Cell E D) start t -> ~ In t (geo_nodes G) ->
  Faults (dijkstra_round veqb H (edges m g) (edges_next m g) (fun e => Ok (er_target e)) cost
      (vm_visit m (g_s g)) (vm_is_visited m (g_s g)) None)
    (match m with Debug => FPanic | Release => FUB end)
    (dijkstra_init veqb H (visit_map g) start).
Proof.
  intros A D N E m s G TR g nf ef HB H HOK cost start t Hs Ht Hn.
  pose proof (traversable_stored _ _ _ _ TR) as STO. refine_store m STO.
  pose proof (RepProofs.built_rep RF _ _ _ HB) as [Hgs _].
  assert (SE : forall c e, In c (geo_nodes G) -> In e (spec_edges G ef c) ->
    exists d, geo_step G c d = Some (er_target e)).
  { intros c e Hc He. apply (in_spec_edges STO) in He.
    destruct He as (d & c' & x & a & Hd & _ & ->). exists d. exact Hd. }
  refine (dijkstra_faults veqb H HOK (edges m g) (edges_next m g) (@er_target Cell E D) cost
    (vm_visit m (g_s g)) (vm_is_visited m (g_s g)) cell_dec veqb_eq (geo_nodes G)
    (spec_edges G ef) (VMrep (s := s) (G := G) (cell := cell)) _ _ _ _
    (vr_visit g nf ef HB cell RF) (vr_visited g nf ef HB cell RF) start Hs (visit_map g)
    (visit_map_rep RF g Hgs) (ex_intro _ t (conj Ht Hn))).
  - intros c Hc. exact (c12 TR g nf ef c HB Hc).
  - intros c Hc. destruct (c12 TR g nf ef c HB Hc) as (it & E1 & D1).
    destruct (c12_targets TR g nf ef c it _ _ HB Hc E1 D1
      (proj1 (c09 STO g nf ef c Outgoing HB Hc))) as [HT _].
    rewrite <- (map_length (@er_target Cell E D)), HT. apply (degree_any _ _ _ _ c STO).
  - intros c e Hc He Ho. destruct (SE c e Hc He) as (d & Hd). split.
    + intros vm. refine (proj2 (any_off STO g nf ef HB c (er_target e) Hc _ Ho vm)).
      apply (in_spec_neighbors STO). eauto.
    + apply (c22_fault STO g nf ef (er_target e) Outgoing HB); auto. eapply step_locatable; eauto.
Qed.

(** Where no edge leads off the board, the search ends with the least costs. *)
Lemma c99_dijkstra_ok : forall (A D N E : Type) (m : mode) (s : Shape Cell A D)
    (G : Geometry A D), Traversable s G ->
  forall (g : LatticeGraph Cell A D N E) nf ef, Built m s G g nf ef ->
  forall H, HeapOK H -> forall cost start, In start (geo_nodes G) ->
  let target := fun e : EdgeReference Cell E D => Ok (er_target e) in
  let followed := Followed (edges m g) (edges_next m g) (@er_target Cell E D) start in
  (forall c, followed c -> In c (geo_nodes G)) ->
  (forall c e, followed c -> EdgeAt (edges m g) (edges_next m g) c e -> 0 <= cost e) ->
  exists r,
    Returns (dijkstra_round veqb H (edges m g) (edges_next m g) target cost
        (vm_visit m (g_s g)) (vm_is_visited m (g_s g)) None)
      (dijkstra_init veqb H (visit_map g) start) r /\
    forall c, match r c with
              | Some x => LeastCost (edges m g) (edges_next m g) target cost start c x
              | None => ~ followed c
              end.
Proof.
  intros A D N E m s G TR g nf ef HB H HOK cost start Hs target followed Hon Hcost.
  pose proof (traversable_stored _ _ _ _ TR) as STO. refine_store m STO.
  pose proof (RepProofs.built_rep RF _ _ _ HB) as [Hgs _].
  destruct (c98_bfs STO g nf ef HB start Hs) as (_ & l & _ & _ & _ & _ & HL & _).
  assert (TG : forall c t, In c (geo_nodes G) ->
    In t (spec_neighbors G c) <-> exists e, In e (spec_edges G ef c) /\ er_target e = t).
  { intros c t Hc. destruct (c12 TR g nf ef c HB Hc) as (it & E1 & D1).
    destruct (c12_targets TR g nf ef c it _ _ HB Hc E1 D1
      (proj1 (c09 STO g nf ef c Outgoing HB Hc))) as [HT _].
    rewrite <- HT, in_map_iff. split; intros (e & X1 & X2); exists e; auto. }
  assert (FR : forall c, followed c <-> In c l).
  { intros c. rewrite HL. split.
    - intros HF. induction HF as [|b it l' it' r HF IH Ed HC Hr]; [exists 0%nat; constructor|].
      destruct IH as (n & IH). pose proof (Hon b HF) as Hb. exists (S n).
      eapply reached_step; [exact IH|exact (proj1 (c09 STO g nf ef b Outgoing HB Hb))| |].
      + apply TG; auto. exists r. split; auto.
        destruct (c12 TR g nf ef b HB Hb) as (it2 & E2 & D2). rewrite Ed in E2. injection E2 as <-.
        eapply consumed_prefix; eauto.
      + apply Hon. eapply followed_step; eauto.
    - intros (n & HR). induction HR as [|n b c l' HR IH HD Hc Hn]; [constructor|].
      pose proof (Hon b IH) as Hb.
      rewrite (Drains_det _ _ _ _ HD (proj1 (c09 STO g nf ef b Outgoing HB Hb))) in Hc.
      apply TG in Hc; auto. destruct Hc as (e & He & <-).
      destruct (c12 TR g nf ef b HB Hb) as (it2 & E2 & (it3 & it4 & HC & _)).
      eapply followed_step; eauto. }
  assert (EDG : forall c, In c l ->
    exists it, edges m g c = Ok it /\ Drains (edges_next m g) it (spec_edges G ef c)).
  { intros c Hc. apply FR in Hc. exact (c12 TR g nf ef c HB (Hon c Hc)). }
  assert (EIN : forall c e, In c l -> In e (spec_edges G ef c) -> In (er_target e) l).
  { intros c e Hc He. destruct (EDG c Hc) as (it & E1 & (it3 & it4 & HC & _)). apply FR.
    apply FR in Hc. eapply followed_step; eauto. }
  destruct (@dijkstra_answers Cell (EdgeReference Cell E D)) with (eqb := veqb) (H := H)
    (edges := edges m g) (edges_next := edges_next m g) (targeto := target)
    (target := @er_target Cell E D) (cost := cost) (visit := vm_visit m (g_s g))
    (visited := vm_is_visited m (g_s g)) (goal := @None Cell) (board := l)
    (out := spec_edges G ef) (VR := VMrep (s := s) (G := G) (cell := cell)) (fresh := visit_map g)
    (start := start) as (r & R0 & R1 & R2).
  - exact veqb_eq.
  - exact HOK.
  - exact EDG.
  - intros c Hc. apply FR in Hc. pose proof (Hon c Hc) as Hb.
    destruct (c12 TR g nf ef c HB Hb) as (it & E1 & D1).
    destruct (c12_targets TR g nf ef c it _ _ HB Hb E1 D1
      (proj1 (c09 STO g nf ef c Outgoing HB Hb))) as [HT _].
    rewrite <- (map_length (@er_target Cell E D)), HT. apply (degree_any _ _ _ _ c STO).
  - reflexivity.
  - exact EIN.
  - intros c e Hc He. destruct (EDG c Hc) as (it & E1 & D1). apply (Hcost c e).
    + apply FR. auto.
    + exists it, (spec_edges G ef c). auto.
  - intros vm M c HV Hc. apply FR in Hc. apply (vr_visit g nf ef HB cell RF vm M c HV (Hon c Hc)).
  - intros vm M c HV Hc. apply FR in Hc. apply (vr_visited g nf ef HB cell RF vm M c HV (Hon c Hc)).
  - apply (visit_map_rep RF g Hgs).
  - apply FR. constructor.
  - exists r. split; [exact R0|].
    assert (RI : forall p k c, Route (edges m g) (edges_next m g) target cost start p k c -> followed c).
    { intros p k c HR. apply FR. assert (HS : In start l) by (apply FR; constructor).
      clear -HR HS EDG EIN. induction HR as [c|a e t p k b He Ht HR IH]; auto.
      apply IH. injection Ht as <-. apply (EIN a); auto. destruct He as (it & l2 & E2 & D2 & He).
      destruct (EDG a HS) as (it' & E1 & D1). rewrite E1 in E2. injection E2 as ->.
      rewrite (Drains_det _ _ _ _ D1 D2). auto. }
    assert (LA : forall c, match r c with
      | Some x => In c l /\ LeastCost (edges m g) (edges_next m g) target cost start c x
      | None => ~ In c l end).
    { apply (least_all (edges m g) (edges_next m g) target cost l start None r R1 R2 eq_refl).
      intros c Hc. apply FR in Hc. induction Hc as [|b it l' it' e HF IH Ed HC Hr].
      - exists [start], 0. constructor.
      - destruct IH as (p & k & P). exists (p ++ [er_target e]), (k + cost e).
        destruct (EDG b) as (it2 & E2 & D2); [apply FR; auto|]. rewrite Ed in E2. injection E2 as <-.
        pose proof (consumed_prefix _ _ _ _ _ _ _ D2 HC e Hr) as He. clear -P Ed D2 He.
        assert (EA : EdgeAt (edges m g) (edges_next m g) b e) by (exists it, (spec_edges G ef b); auto).
        clear Ed D2 He. induction P as [c|a e1 t p k b He Ht P IH].
        + replace (0 + cost e) with (cost e + 0) by lia. cbn [app].
          eapply route_step; [exact EA|reflexivity|constructor].
        + cbn [app]. replace (cost e1 + k + cost e) with (cost e1 + (k + cost e)) by lia.
          eapply route_step; eauto. }
    intros c. specialize (LA c). destruct (r c) as [x|]; [tauto|]. intros HF. apply LA, FR, HF.
Qed.
