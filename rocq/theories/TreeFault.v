(** * TreeFault: [min_spanning_tree] where an edge leads off the board (C84, continued). *)

From Coq Require Import Permutation.
From Verif Require Import Machine Store Axes Shapes Lattice Spec Spec11 Basics AxisProofs GeoProofs
  StoreProofs GraphProofs RepProofs Main1 Main2 Traverse Astar Spec5 Spec6 Kruskal Spec7 TraverseProofs KruskalProofs
  KruskalRun KruskalMain IterProofs AnySearchMain Follow DijkstraFault ConnFault.
From Coq Require Import ZifyBool ZifyNat.

Section Run.
  Context {C N Ed RIt NIt T : Type} (dec : forall a b : C, {a = b} + {a <> b})
    (U : UFOps T) (UOK : UFOK U) (H : HeapOps (C * C)) (HOK : HeapOK H)
    (bound : outcome Z) (to_index : C -> outcome Z)
    (refs : RIt) (refs_next : RIt -> outcome (option Ed * RIt)) (refs_hint : outcome (Z * option Z))
    (source target : Ed -> outcome C) (weight : Ed -> Z)
    (nit : NIt) (nodes_next : NIt -> outcome (option (C * N) * NIt)).
  Context (nodes : list C) (nf : C -> N) (l : list Ed) (src tgt : Ed -> C) (hint : Z * option Z)
    (HB : bound = Ok (Z.of_nat (length nodes)))
    (HI : forall i c, nth_error nodes i = Some c -> to_index c = Ok (Z.of_nat i))
    (HR : Drains refs_next refs l) (HL : Z.of_nat (length l) + 1 < 2 ^ 72)
    (HH : refs_hint = Ok hint)
    (HS : forall e, In e l -> source e = Ok (src e)) (HT : forall e, In e l -> target e = Ok (tgt e))
    (HE : forall e, In e l -> In (src e) nodes /\
       (In (tgt e) nodes \/ (~ In (tgt e) nodes /\ to_index (tgt e) = Fail FPanic)))
    (HX : exists e, In e l /\ ~ In (tgt e) nodes)
    (HN : Drains nodes_next nit (map (fun c => (c, nf c)) nodes)).
  Notation n := (Z.of_nat (length nodes)).
  Notation next := (mst_next U H to_index nodes_next).
  Notation see := (see weight src tgt).
  Notation entry := (entry (C := C)).
  Notation idx := (idx to_index).

  Lemma idx_fine : forall c, In c nodes -> to_index c = Ok (idx c) /\ 0 <= idx c < n /\
    nth_error nodes (Z.to_nat (idx c)) = Some c.
  Proof using HI. clear - HI.
    intros c Hc. apply In_nth_error in Hc. destruct Hc as (i & Hi). pose proof (HI i c Hi) as E.
    assert (i < length nodes)%nat by (apply nth_error_Some; congruence).
    unfold KruskalRun.idx. rewrite E. split; auto. split; [lia|]. rewrite Nat2Z.id. auto.
  Qed.

  Section Phase.
    Context (Rep : T -> Z -> list (Z * Z) -> Prop)
      (U2 : forall t n es a b, Rep t n es -> 0 <= a < n -> 0 <= b < n ->
         exists x t', uf_union U t a b = Ok (x, t') /\ (x = true <-> ~ Linked es a b) /\
           Rep t' n ((a, b) :: es)).

    (** The heap still holds an edge that leads off the board. *)
    Record FInv (t : T) (q : list (Z * (C * C))) : Prop := {
      fi_rep : exists es, Rep t n es;
      fi_in : forall x, In x (map entry q) -> In x (map see l);
      fi_bad : exists a b w, In (w, (a, b)) q /\ ~ In b nodes
    }.

    Lemma fault_rounds : forall mp, Ids nodes mp -> forall k q t, length q = k -> FInv t q ->
      (exists i, Rounds (mst_round (N := N) U H to_index mp) i (t, q) (Fail FPanic) /\ (i <= k)%nat) \/
      (exists i t' q' e, Rounds (mst_round (N := N) U H to_index mp) i (t, q) (Ok (Some (el to_index e), (t', q'))) /\
         (i <= k)%nat /\ (length q' < k)%nat /\ FInv t' q' /\ In e (map see l) /\
         In (fst (fst e)) nodes /\ In (snd (fst e)) nodes).
    Proof.
      intros mp HM. induction k as [k IH] using lt_wf_ind. intros q t Hk FI.
      destruct (heap_pop H q) as [[[w [a b]] q1]|] eqn:EP.
      2:{ pose proof (proj2 HOK q) as HP. rewrite EP in HP. subst q.
          destruct (fi_bad _ _ FI) as (a & b & w & [] & _). }
      pose proof (proj2 HOK q) as HP. rewrite EP in HP. destruct HP as [HP1 _].
      assert (Hin : In (a, b, w) (map see l)).
      { apply (fi_in _ _ FI). apply in_map_iff. exists (w, (a, b)). split; auto.
        eapply Permutation_in; [apply Permutation_sym, HP1|left; auto]. }
      apply in_map_iff in Hin. destruct Hin as (e & Ee & He).
      unfold KruskalRun.see in Ee. injection Ee as E1 E2 E3.
      destruct (HE e He) as [Ha Hb]. rewrite E1 in Ha. rewrite E2 in Hb.
      destruct (idx_fine a Ha) as (A1 & A2 & _).
      destruct Hb as [Hb|[Nb Hb]].
      2:{ left. exists 0%nat. split; [|lia]. constructor. unfold mst_round. cbn [fst snd].
          rewrite EP, A1. cbn [bind]. rewrite Hb. reflexivity. }
      destruct (idx_fine b Hb) as (B1 & B2 & _).
      destruct (fi_rep _ _ FI) as (es & Hr).
      destruct (U2 t n es _ _ Hr A2 B2) as (x & t1 & X1 & _ & X3).
      assert (LQ : length q = S (length q1)) by (apply Permutation_length in HP1; auto).
      assert (F1 : FInv t1 q1).
      { split.
        - eauto.
        - intros y Hy. apply (fi_in _ _ FI). apply in_map_iff in Hy. destruct Hy as (z & <- & Hz).
          apply in_map. eapply Permutation_in; [apply Permutation_sym, HP1|right; auto].
        - destruct (fi_bad _ _ FI) as (a' & b' & w' & Hi & Hn). exists a', b', w'. split; auto.
          eapply Permutation_in in Hi; [|exact HP1]. destruct Hi as [Hi|Hi]; auto.
          exfalso. apply Hn. injection Hi as _ _ <-. auto. }
      destruct x.
      - right. exists 0%nat, t1, q1, (a, b, w). split; [|split; [lia|split; [lia|]]].
        + constructor. unfold mst_round. cbn [fst snd]. rewrite EP, A1, B1. cbn [bind]. rewrite X1.
          cbn [bind]. rewrite (HM _ A2), (HM _ B2). auto.
        + split; auto. split; [|cbn [fst snd]; auto]. apply in_map_iff. exists e. split; auto.
          unfold KruskalRun.see. congruence.
      - assert (BR : mst_round (N := N) U H to_index mp (t, q) = Ok (inl (t1, q1))).
        { unfold mst_round. cbn [fst snd]. rewrite EP, A1, B1. cbn [bind]. rewrite X1. auto. }
        destruct (IH (length q1) ltac:(lia) q1 t1 eq_refl F1)
          as [(i & R1 & R2)|(i & t' & q' & e' & R1 & R2 & R3 & R4)].
        + left. exists (S i). split; [econstructor; eauto|lia].
        + right. exists (S i), t', q', e'. split; [econstructor; eauto|]. split; [lia|]. split; [lia|auto].
    Qed.

    Lemma fault_phase : forall mp cnt, Ids nodes mp -> forall k q t, length q = k ->
      (k <= length l)%nat -> FInv t q ->
      exists R st, Consumed next (mkMST None t q mp cnt) (map (el to_index) R) st /\
        next st = Fail FPanic /\
        forall e, In e R -> In e (map see l) /\ In (fst (fst e)) nodes /\ In (snd (fst e)) nodes.
    Proof.
      intros mp cnt HM. induction k as [k IH] using lt_wf_ind. intros q t Hk Hkl FI.
      destruct (fault_rounds mp HM k q t Hk FI)
        as [(i & R1 & R2)|(i & t' & q' & e & R1 & R2 & R3 & R4 & R5)].
      - exists [], (mkMST None t q mp cnt). split; [constructor|]. split; [|intros e []].
        unfold mst_next. cbn [mst_nodes bind mst_map mst_uf mst_heap mst_count].
        rewrite (loop_rounds _ _ _ _ R1) by lia. auto.
      - destruct (IH (length q') R3 q' t' eq_refl ltac:(lia) R4) as (R & st & S1 & S2 & S3).
        exists (e :: R), st. split; [|split; auto].
        + cbn [map]. econstructor; [|exact S1].
          unfold mst_next. cbn [mst_nodes bind mst_map mst_uf mst_heap mst_count].
          rewrite (loop_rounds _ _ _ _ R1) by lia. auto.
        + intros e' [<-|He]; auto.
    Qed.
  End Phase.

  Lemma node_phase_fault : forall t q (tail : list (Element N) -> Prop),
    (forall mp cnt, Ids nodes mp -> exists R st, tail R /\
       Consumed next (mkMST None t q mp cnt) R st /\ next st = Fail FPanic) ->
    forall rest it pre mp, nodes = pre ++ rest ->
    Drains nodes_next it (map (fun c => (c, nf c)) rest) ->
    (forall j, 0 <= j < Z.of_nat (length pre) -> mp j = Some j) ->
    exists R st, tail R /\ Consumed next (mkMST (Some it) t q mp (Z.of_nat (length pre)))
      (map (fun c => ENode (nf c)) rest ++ R) st /\ next st = Fail FPanic.
  Proof.
    intros t q tail HTL. induction rest as [|c rest IH]; intros it pre mp HP HD HM.
    - rewrite app_nil_r in HP. subst pre. destruct (HTL mp n HM) as (R & st & R1 & R2 & R3).
      assert (EN : next (mkMST None t q mp n) = next (mkMST (Some it) t q mp n)).
      { destruct HD as (it1 & it2 & HC & HN' & _). inversion HC; subst.
        unfold mst_next. cbn [mst_nodes mst_map mst_uf mst_heap mst_count]. rewrite HN'. reflexivity. }
      cbn [map app]. inversion R2 as [|? x it' R' ? Hx HC']; subst.
      + exists [], (mkMST (Some it) t q mp n). split; auto. split; [constructor|congruence].
      + exists (x :: R'), st. split; auto. split; auto. econstructor; [rewrite <- EN; eauto|auto].
    - assert (Hi : to_index c = Ok (Z.of_nat (length pre))).
      { apply HI. rewrite HP, nth_error_app2, Nat.sub_diag by lia. auto. }
      assert (HP' : nodes = (pre ++ [c]) ++ rest) by (rewrite HP, <- app_assoc; auto).
      destruct HD as (it1 & it2 & HC & HN' & HN'').
      inversion HC as [|? ? it' ? ? Hx HC' E1 E2]; clear HC E1 E2; try subst.
      destruct (IH it' (pre ++ [c]) (map_insert Z.eqb mp (Z.of_nat (length pre)) (Z.of_nat (length pre))))
        as (R & st & R1 & R2 & R3).
      { rewrite <- app_assoc. auto. }
      { exists it1, it2. auto. }
      { intros j Hj. rewrite app_length in Hj. cbn [length] in Hj. unfold map_insert.
        destruct (Z.eqb_spec j (Z.of_nat (length pre))); [congruence|]. apply HM. lia. }
      exists R, st. split; auto. split; auto. cbn [map app]. econstructor; [|exact R2].
      unfold mst_next. cbn [mst_nodes mst_map mst_uf mst_heap mst_count]. rewrite Hx. cbn [bind].
      rewrite Hi. cbn [bind]. rewrite app_length. cbn [length].
      replace (Z.of_nat (length pre + 1)) with (Z.of_nat (length pre) + 1) by lia. auto.
  Qed.

  Lemma mst_faults : exists it K R st,
    mst_new U H bound refs refs_next refs_hint source target weight nit = Ok it /\
    Consumed next it (map (fun c => ENode (nf c)) nodes ++ R) st /\ next st = Fail FPanic /\
    Forall2 (Stands_for nodes) R K /\ (forall e, In e K -> In e (map see l)).
  Proof.
    destruct UOK as (Rep & U1 & U2 & _).
    assert (FOLD : forall l1 q, (forall e, In e l1 -> In e l) ->
      exists q', fold_outcome (fun q e =>
        let! a := source e in
        let! b := target e in
        Ok (heap_push H (weight e, (a, b)) q)) l1 q = Ok q' /\
        Permutation (map entry q') (map see l1 ++ map entry q)).
    { induction l1 as [|e l1 IH]; intros q Hl.
      - exists q. auto.
      - cbn [fold_outcome]. rewrite HS, HT by (apply Hl; left; auto). cbn [bind].
        destruct (IH (heap_push H (weight e, (src e, tgt e)) q)) as (q' & Q1 & Q2).
        { intros; apply Hl; right; auto. }
        exists q'. split; auto. rewrite Q2, (proj1 HOK). cbn [map KruskalRun.entry fst snd app KruskalRun.see].
        symmetry. apply Permutation_middle. }
    destruct (FOLD l []) as (q & Q1 & Q2); auto. cbn [map] in Q2. rewrite app_nil_r in Q2.
    assert (FI : FInv Rep (uf_new U n) q).
    { split.
      - exists []. apply U1. lia.
      - intros x Hx. eapply Permutation_in; [exact Q2|auto].
      - destruct HX as (e & He & Hn). exists (src e), (tgt e), (weight e). split; auto.
        assert (Hi : In (see e) (map entry q)).
        { eapply Permutation_in; [apply Permutation_sym, Q2|apply in_map; auto]. }
        apply in_map_iff in Hi. destruct Hi as ([w [a b]] & Ee & Hi).
        unfold KruskalRun.entry, KruskalRun.see in Ee. cbn [fst snd] in Ee. injection Ee as -> -> ->. auto. }
    assert (LQ : length q = length l).
    { apply Permutation_length in Q2. rewrite !map_length in Q2. auto. }
    destruct (node_phase_fault (uf_new U n) q (fun R => exists K, Forall2 (Stands_for nodes) R K /\
      forall e, In e K -> In e (map see l))) with (rest := nodes) (it := nit) (pre := @nil C)
      (mp := fun _ : Z => @None Z) as (R & st & (K & K1 & K2) & K3 & K4); auto.
    - intros mp cnt HM.
      destruct (fault_phase Rep U2 mp cnt HM (length q) q (uf_new U n) eq_refl ltac:(lia) FI)
        as (R & st & R1 & R2 & R3).
      exists (map (el to_index) R), st. split; auto. exists R. split; [|intros e He; apply R3; auto].
      clear R1 R2. induction R as [|[[a b] w] R IH]; cbn [map]; constructor.
      + destruct (R3 (a, b, w)) as (_ & Ha & Hb); [left; auto|]. cbn [fst snd] in Ha, Hb.
        destruct (idx_fine a Ha) as (_ & A2 & A3), (idx_fine b Hb) as (_ & B2 & B3).
        cbn [Stands_for el fst snd]. repeat split; auto; lia.
      + apply IH. intros e He. apply R3. right; auto.
    - intros j Hj. cbn [length] in Hj. lia.
    - exists (mkMST (Some nit) (uf_new U n) q (fun _ => None) 0), K, R, st. split; auto.
      unfold mst_new. rewrite HB, HH. cbn [bind].
      rewrite (for_each_fold _ _ _ _ _ l _ _ q HR HL Q1). auto.
  Qed.
End Run.

Lemma c84_fault : forall A D N (m : mode) (s : Shape Cell A D) (G : Geometry A D), Stored s G ->
  forall (g : LatticeGraph Cell A D N Z) nf ef, Built m s G g nf ef ->
  (m = Release \/
   Z.of_nat (length (geo_nodes G)) * Z.of_nat (ax_UNDIRECTED_COUNT (sh_axis s)) < 2 ^ 64) ->
  (exists r, In r (spec_edge_references G ef) /\ ~ In (er_target r) (geo_nodes G)) ->
  forall T (U : UFOps T), UFOK U -> forall H : HeapOps (Cell * Cell), HeapOK H ->
  exists it K R st,
    mst_new U H (node_bound m g) (edge_references g) (edge_references_next m g)
      (edge_references_size_hint m g (edge_references g)) (fun e => Ok (er_source e))
      (fun e => Ok (er_target e)) er_weight (node_references g) = Ok it /\
    Consumed (mst_next U H (to_index m g) (node_references_next m g)) it
      (map (fun c => ENode (nf c)) (geo_nodes G) ++ R) st /\
    mst_next U H (to_index m g) (node_references_next m g) st = Fail FPanic /\
    Forall2 (Stands_for (geo_nodes G)) R K /\
    (forall e, In e K -> In e (map seen (spec_edge_references G ef))).
Proof.
  intros A D N m s G STO g nf ef HB HINT HX T U UOK H HOK.
  destruct (c05 STO g nf ef HB) as (B1 & B2 & B3 & B4).
  assert (exists u, edge_references_size_hint m g (edge_references g) = Ok (0, Some u)) as (u & R3).
  { destruct (Z_lt_le_dec (Z.of_nat (length (geo_nodes G)) * Z.of_nat (ax_UNDIRECTED_COUNT (sh_axis s)))
      (2 ^ 64)) as [Hsz|Hsz].
    - destruct (c39_references STO g nf ef [] (edge_references g) HB Hsz (Consumed_nil _ _))
        as (rest & u & _ & _ & R3 & _). eauto.
    - pose proof (c39_overflow STO g nf ef HB Hsz) as R3.
      destruct HINT as [EM|HI]; [|exfalso; lia]. destruct m; [discriminate|]. eauto. }
  apply mst_faults with (src := er_source) (tgt := er_target) (hint := (0, Some u)); auto.
  - exact cell_dec.
  - intros i c Hi. apply B4. auto.
  - apply (c15_drains STO g nf ef HB).
  - apply (kl_length (m := m) STO ef); auto.
  - intros r Hr. destruct (ref_ends ef r Hr) as [Hs (d & Hd)]. split; auto.
    destruct (in_dec cell_dec (er_target r) (geo_nodes G)) as [Hi|Hn]; [left; auto|right].
    split; auto. apply (c05_off_board STO g nf ef (er_target r) HB); auto.
    eapply step_locatable; eauto.
  - apply (c07 STO g nf ef HB).
Qed.
