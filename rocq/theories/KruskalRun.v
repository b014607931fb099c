(** * KruskalRun: [connected_components] and [min_spanning_tree] on any graph that keeps its
    promises. *)

From Coq Require Import Permutation.
From Verif Require Import Machine Traverse Astar Kruskal Spec7 Basics TraverseProofs KruskalProofs.
From Coq Require Import ZifyBool ZifyNat.

Lemma linked_map : forall X Y (f : X -> Y) es a b, Linked es a b ->
  Linked (map (fun e => (f (fst e), f (snd e))) es) (f a) (f b).
Proof.
  intros X Y f es a b HL. induction HL.
  - apply linked_edge. apply in_map_iff. exists (a, b). auto.
  - apply linked_refl.
  - apply linked_sym. auto.
  - eapply linked_trans; eauto.
Qed.

Lemma nodup_map_le2 : forall X Y Z' (dy : forall a b : Y, {a = b} + {a <> b})
  (dz : forall a b : Z', {a = b} + {a <> b}) (f : X -> Y) (g : X -> Z') l,
  (forall x y, In x l -> In y l -> f x = f y -> g x = g y) ->
  (length (nodup dz (map g l)) <= length (nodup dy (map f l)))%nat.
Proof.
  intros X Y Z' dy dz f g l. induction l as [|x l IH]; intros HF; cbn [map nodup]; auto.
  assert (IH' : (length (nodup dz (map g l)) <= length (nodup dy (map f l)))%nat).
  { apply IH. intros y z Hy Hz. apply HF; right; auto. }
  destruct (in_dec dy (f x) (map f l)) as [Hi|Hn].
  - destruct (in_dec dz (g x) (map g l)) as [Hi'|Hn']; auto.
    exfalso. apply Hn'. apply in_map_iff in Hi. destruct Hi as (y & Y1 & Y2).
    apply in_map_iff. exists y. split; auto. apply HF; auto; [right|left]; auto.
  - destruct (in_dec dz (g x) (map g l)); cbn [length]; lia.
Qed.

Lemma Drains_next : forall St X (next : St -> outcome (option X * St)) a b l,
  next a = next b -> Drains next a l -> Drains next b l.
Proof.
  intros St X next a b l HE (i1 & i2 & HC & H1 & H2). destruct HC as [it|it x it1 l it2 Hn HC].
  - exists b, i2. rewrite <- HE. repeat split; auto. constructor.
  - exists it2, i2. repeat split; auto. econstructor; [rewrite <- HE; eauto|auto].
Qed.

Section Run.
  Context {C N Ed RIt NIt T : Type} (dec : forall a b : C, {a = b} + {a <> b})
    (U : UFOps T) (UOK : UFOK U) (H : HeapOps (C * C)) (HOK : HeapOK H)
    (bound : outcome Z) (to_index : C -> outcome Z)
    (refs : RIt) (refs_next : RIt -> outcome (option Ed * RIt)) (refs_hint : outcome (Z * option Z))
    (source target : Ed -> outcome C) (weight : Ed -> Z)
    (nit : NIt) (nodes_next : NIt -> outcome (option (C * N) * NIt)).
  Context (nodes : list C) (nf : C -> N) (l : list Ed) (src tgt : Ed -> C) (hint : Z * option Z)
    (ND : NoDup nodes) (HB : bound = Ok (Z.of_nat (length nodes)))
    (HI : forall i c, nth_error nodes i = Some c -> to_index c = Ok (Z.of_nat i))
    (HR : Drains refs_next refs l) (HL : Z.of_nat (length l) + 1 < 2 ^ 72)
    (HH : refs_hint = Ok hint)
    (HS : forall e, In e l -> source e = Ok (src e)) (HT : forall e, In e l -> target e = Ok (tgt e))
    (HE : forall e, In e l -> In (src e) nodes /\ In (tgt e) nodes)
    (HN : Drains nodes_next nit (map (fun c => (c, nf c)) nodes)).

  Definition see (e : Ed) : WEdge C := (src e, tgt e, weight e).
  Definition idx (c : C) : Z := match to_index c with Ok i => i | Fail _ => 0 end.
  Definition idx2 (e : C * C) : Z * Z := (idx (fst e), idx (snd e)).
  Notation n := (Z.of_nat (length nodes)).

  Lemma idx_ok : forall c, In c nodes -> to_index c = Ok (idx c) /\ 0 <= idx c < n /\
    nth_error nodes (Z.to_nat (idx c)) = Some c.
  Proof.
    intros c Hc. apply In_nth_error in Hc. destruct Hc as (i & Hi). pose proof (HI i c Hi) as E.
    assert (i < length nodes)%nat by (apply nth_error_Some; congruence).
    unfold idx. rewrite E. split; auto. split; [lia|]. rewrite Nat2Z.id. auto.
  Qed.

  Lemma linked_idx : forall (es : list (C * C)) a b,
    (forall x y, In (x, y) es -> In x nodes /\ In y nodes) -> In a nodes -> In b nodes ->
    Linked (map idx2 es) (idx a) (idx b) <-> Linked es a b.
  Proof.
    intros es a b HX Ha Hb. split; [|apply linked_map].
    intros HLK. apply (linked_map _ _ (fun i => nth (Z.to_nat i) nodes a)) in HLK.
    assert (G : forall c, In c nodes -> nth (Z.to_nat (idx c)) nodes a = c).
    { intros c Hc. apply nth_error_nth. apply (idx_ok c Hc). }
    rewrite !G, map_map in HLK by auto. revert HLK. apply linked_mono.
    intros [x y] Hxy. apply in_map_iff in Hxy. destruct Hxy as ([x' y'] & E & Hi).
    unfold idx2 in E. cbn [fst snd] in E. destruct (HX x' y' Hi) as [H1 H2].
    rewrite (G x' H1), (G y' H2) in E. congruence.
  Qed.

  Lemma inside_see : Inside nodes (map see l).
  Proof.
    intros a b w Hi. apply in_map_iff in Hi. destruct Hi as (e & E & Hi). unfold see in E.
    injection E as <- <- _. auto.
  Qed.

  (** ** Components *)

  Lemma components_count :
    connected_components U bound to_index refs refs_next source target =
    Ok (Z.of_nat (ncl dec nodes (ends (map see l)))).
  Proof.
    destruct UOK as (Rep & U1 & U2 & U3). unfold connected_components. rewrite HB. cbn [bind].
    assert (FOLD : forall l1 es t, (forall e, In e l1 -> In e l) -> Rep t n (map idx2 es) ->
      exists t', fold_outcome (fun t e =>
        let! a := source e in
        let! b := target e in
        let! i := to_index a in
        let! j := to_index b in
        let! (_, t) := uf_union U t i j in Ok t) l1 t = Ok t' /\
        Rep t' n (map idx2 (rev (ends (map see l1)) ++ es))).
    { induction l1 as [|e l1 IH]; intros es t Hl HRep.
      - exists t. auto.
      - cbn [fold_outcome]. rewrite HS, HT by (apply Hl; left; auto). cbn [bind].
        destruct (HE e ltac:(apply Hl; left; auto)) as [Ha Hb].
        destruct (idx_ok _ Ha) as (I1 & I2 & _). destruct (idx_ok _ Hb) as (J1 & J2 & _).
        rewrite I1, J1. cbn [bind].
        destruct (U2 t n (map idx2 es) (idx (src e)) (idx (tgt e)) HRep I2 J2) as (x & t' & E1 & _ & R').
        rewrite E1. cbn [bind]. destruct (IH ((src e, tgt e) :: es) t') as (t'' & F1 & F2).
        { intros; apply Hl; right; auto. } { exact R'. }
        exists t''. split; auto. cbn [map ends rev see fst]. fold (ends (map see l1)).
        rewrite <- app_assoc. exact F2. }
    destruct (FOLD l [] (uf_new U n)) as (t' & F1 & F2); auto; [apply U1; lia|].
    rewrite (for_each_fold _ _ _ _ _ l _ _ t' HR HL F1). cbn [bind]. f_equal. f_equal.
    rewrite app_nil_r in F2. destruct (U3 _ _ _ F2) as [LL LB]. rewrite Nat2Z.id in LL.
    assert (EQ : forall a b, In a nodes -> In b nodes ->
      nth (Z.to_nat (idx a)) (uf_labels U t') 0 = nth (Z.to_nat (idx b)) (uf_labels U t') 0 <->
      Linked (ends (map see l)) a b).
    { intros a b Ha Hb. destruct (idx_ok a Ha) as (_ & A2 & _), (idx_ok b Hb) as (_ & B2 & _).
      rewrite (LB _ _ A2 B2). rewrite linked_idx; auto.
      - split; apply linked_mono; intros e He; apply in_rev; [|rewrite rev_involutive]; auto.
      - intros x y Hi. apply in_rev in Hi. apply ends_in in Hi. destruct Hi as (w & Hi).
        apply (inside_see x y w Hi). }
    assert (LAB : uf_labels U t' = map (fun c => nth (Z.to_nat (idx c)) (uf_labels U t') 0) nodes).
    { apply nth_ext with (d := 0) (d' := 0); [rewrite map_length; auto|].
      intros i Hi. assert (Hi' : (i < length nodes)%nat) by lia.
      destruct (nth_error nodes i) as [c|] eqn:Ec; [|apply nth_error_None in Ec; lia].
      pose proof (HI i c Ec) as Hci. symmetry.
      erewrite nth_error_nth; [|apply map_nth_error; exact Ec]. unfold idx. rewrite Hci, Nat2Z.id. auto. }
    unfold ncl. rewrite LAB. apply Nat.le_antisymm.
    - apply nodup_map_le2. intros x y Hx Hy Hxy. apply EQ; auto. apply (lab_linked dec). auto.
    - apply nodup_map_le2. intros x y Hx Hy Hxy. apply (lab_linked dec). apply EQ; auto.
  Qed.

  (** ** Minimum spanning tree *)

  Notation next := (mst_next U H to_index nodes_next).
  Definition entry (x : Z * (C * C)) : WEdge C := (snd x, fst x).
  Definition el (e : WEdge C) : Element N := EEdge (idx (fst (fst e))) (idx (snd (fst e))) (snd e).
  Definition Ids (mp : Z -> option Z) : Prop := forall j, 0 <= j < n -> mp j = Some j.

  Section Phase.
    Context (Rep : T -> Z -> list (Z * Z) -> Prop)
      (U2 : forall t n es a b, Rep t n es -> 0 <= a < n -> 0 <= b < n ->
         exists x t', uf_union U t a b = Ok (x, t') /\ (x = true <-> ~ Linked es a b) /\
           Rep t' n ((a, b) :: es)).

    Record EInv (t : T) (q : list (Z * (C * C))) (D K : list (WEdge C)) : Prop := {
      ei_rep : Rep t n (map idx2 (ends D));
      ei_chosen : Chosen D K;
      ei_rising : Rising D;
      ei_below : forall x y, In x D -> In y q -> snd x <= fst y;
      ei_perm : Permutation (map see l) (D ++ map entry q)
    }.

    Lemma ei_inside : forall t q D K, EInv t q D K -> Inside nodes (D ++ map entry q).
    Proof.
      intros t q D K E a b w Hi. apply (inside_see a b w).
      eapply Permutation_in; [apply Permutation_sym, (ei_perm _ _ _ _ E)|auto].
    Qed.

    Lemma edge_rounds : forall mp, Ids mp -> forall k q t D K, length q = k -> EInv t q D K ->
      (exists i t' D', Rounds (mst_round (N := N) U H to_index mp) i (t, q) (Ok (None, (t', []))) /\
         (i <= k)%nat /\ EInv t' [] D' K) \/
      (exists i t' q' D' e, Rounds (mst_round U H to_index mp) i (t, q) (Ok (Some (el e), (t', q'))) /\
         (i <= k)%nat /\ (length q' < k)%nat /\ EInv t' q' D' (e :: K)).
    Proof.
      intros mp HM. induction k as [k IH] using lt_wf_ind. intros q t D K Hk EI.
      destruct (heap_pop H q) as [[[w [a b]] q1]|] eqn:EP.
      2:{ left. pose proof (proj2 HOK q) as HP. rewrite EP in HP. subst q. exists 0%nat, t, D.
          split; [|split; [lia|auto]]. constructor. unfold mst_round. cbn [fst snd]. rewrite EP. auto. }
      pose proof (proj2 HOK q) as HP. rewrite EP in HP. destruct HP as [HP1 HP2]. cbn [fst] in HP2.
      pose proof (ei_inside _ _ _ _ EI) as IN.
      assert (Hin : In (a, b, w) (map entry q)).
      { apply in_map_iff. exists (w, (a, b)). split; auto.
        eapply Permutation_in; [apply Permutation_sym, HP1|left; auto]. }
      destruct (IN a b w) as [Ha Hb]; [apply in_or_app; auto|].
      destruct (idx_ok a Ha) as (A1 & A2 & _), (idx_ok b Hb) as (B1 & B2 & _).
      destruct (U2 t n _ (idx a) (idx b) (ei_rep _ _ _ _ EI) A2 B2) as (x & t1 & E1 & E2 & E3).
      assert (HLK : Linked (map idx2 (ends D)) (idx a) (idx b) <-> Linked (ends D) a b).
      { apply linked_idx; auto. intros c d Hcd. apply ends_in in Hcd. destruct Hcd as (w' & Hcd).
        apply (IN c d w'). apply in_or_app; auto. }
      assert (BD : forall K', Chosen ((a, b, w) :: D) K' -> EInv t1 q1 ((a, b, w) :: D) K').
      { intros K' HC. split; auto.
        - constructor; [|apply (ei_rising _ _ _ _ EI)]. intros y Hy. cbn [snd].
          apply (ei_below _ _ _ _ EI y (w, (a, b)) Hy).
          eapply Permutation_in; [apply Permutation_sym, HP1|left; auto].
        - intros y z [<-|Hy] Hz; cbn [snd].
          + apply HP2. eapply Permutation_in; [apply Permutation_sym, HP1|right; auto].
          + apply (ei_below _ _ _ _ EI y z Hy).
            eapply Permutation_in; [apply Permutation_sym, HP1|right; auto].
        - rewrite (ei_perm _ _ _ _ EI). rewrite HP1. cbn [map entry fst snd app].
          symmetry. apply Permutation_middle. }
      assert (LQ : length q = S (length q1)) by (apply Permutation_length in HP1; auto).
      destruct x.
      - right. exists 0%nat, t1, q1, ((a, b, w) :: D), (a, b, w).
        split; [|split; [lia|split; [lia|]]].
        + constructor. unfold mst_round. cbn [fst snd]. rewrite EP, A1, B1. cbn [bind]. rewrite E1.
          cbn [bind]. rewrite (HM _ A2), (HM _ B2). auto.
        + apply BD. constructor; [apply (ei_chosen _ _ _ _ EI)|]. rewrite <- HLK. apply E2. auto.
      - assert (BR : mst_round (N := N) U H to_index mp (t, q) = Ok (inl (t1, q1))).
        { unfold mst_round. cbn [fst snd]. rewrite EP, A1, B1. cbn [bind]. rewrite E1. auto. }
        assert (E' : EInv t1 q1 ((a, b, w) :: D) K).
        { apply BD. apply ch_skip; [apply (ei_chosen _ _ _ _ EI)|]. rewrite <- HLK.
          destruct (linked_dec Z.eq_dec (map idx2 (ends D)) (idx a) (idx b)) as [Hy|Hn]; auto.
          apply E2 in Hn. discriminate. }
        destruct (IH (length q1) ltac:(lia) q1 t1 _ K eq_refl E')
          as [(i & t' & D' & R1 & R2 & R3)|(i & t' & q' & D' & e & R1 & R2 & R3 & R4)].
        + left. exists (S i), t', D'. split; [econstructor; eauto|]. split; [lia|auto].
        + right. exists (S i), t', q', D', e. split; [econstructor; eauto|]. split; [lia|]. split; [lia|auto].
    Qed.

    Lemma edge_phase : forall mp cnt, Ids mp -> forall k q t D K, length q = k -> (k <= length l)%nat ->
      EInv t q D K ->
      exists R D', Drains next (mkMST None t q mp cnt) (map el R) /\ Chosen D' (rev R ++ K) /\
        Rising D' /\ Permutation (map see l) D'.
    Proof.
      intros mp cnt HM. induction k as [k IH] using lt_wf_ind. intros q t D K Hk Hkl EI.
      destruct (edge_rounds mp HM k q t D K Hk EI)
        as [(i & t' & D' & R1 & R2 & R3)|(i & t' & q' & D' & e & R1 & R2 & R3 & R4)].
      - exists [], D'. split.
        + exists (mkMST None t q mp cnt), (mkMST None t' [] mp cnt). split; [constructor|]. split.
          * unfold mst_next. cbn [mst_nodes bind mst_map mst_uf mst_heap mst_count].
            rewrite (loop_rounds _ _ _ _ R1) by lia. auto.
          * unfold mst_next. cbn [mst_nodes bind mst_map mst_uf mst_heap mst_count].
            rewrite (loop_rounds _ 0 _ (Ok (None, (t', [])))); auto; [|lia].
            constructor. unfold mst_round. cbn [fst snd]. pose proof (proj2 HOK []) as HP.
            destruct (heap_pop H []) as [[x q']|]; auto. destruct HP as [HP _].
            apply Permutation_nil in HP. discriminate.
        + cbn [rev app]. split; [apply (ei_chosen _ _ _ _ R3)|]. split; [apply (ei_rising _ _ _ _ R3)|].
          rewrite (ei_perm _ _ _ _ R3). cbn [map]. rewrite app_nil_r. auto.
      - destruct (IH (length q') R3 q' t' D' (e :: K) eq_refl ltac:(lia) R4) as (R & D'' & S1 & S2 & S3).
        exists (e :: R), D''. split.
        + cbn [map]. eapply Drains_cons; [|exact S1].
          unfold mst_next. cbn [mst_nodes bind mst_map mst_uf mst_heap mst_count].
          rewrite (loop_rounds _ _ _ _ R1) by lia. auto.
        + cbn [rev]. rewrite <- app_assoc. auto.
    Qed.
  End Phase.

  Lemma node_phase : forall t q tail,
    (forall mp cnt, Ids mp -> exists R, tail R /\ Drains next (mkMST None t q mp cnt) R) ->
    forall rest it pre mp, nodes = pre ++ rest ->
    Drains nodes_next it (map (fun c => (c, nf c)) rest) ->
    (forall j, 0 <= j < Z.of_nat (length pre) -> mp j = Some j) ->
    exists R, tail R /\ Drains next (mkMST (Some it) t q mp (Z.of_nat (length pre)))
      (map (fun c => ENode (nf c)) rest ++ R).
  Proof.
    intros t q tail HTL. induction rest as [|c rest IH]; intros it pre mp HP HD HM.
    - rewrite app_nil_r in HP. subst pre. destruct (HTL mp n HM) as (R & R1 & R2). exists R. split; auto.
      cbn [map app]. eapply Drains_next; [|exact R2]. destruct HD as (it1 & it2 & HC & HN' & _).
      inversion HC; subst. unfold mst_next. cbn [mst_nodes mst_map mst_uf mst_heap mst_count].
      rewrite HN'. reflexivity.
    - destruct HD as (it1 & it2 & HC & HN' & HN''). inversion HC as [|? ? it' ? ? Hx HC']; subst.
      assert (Hi : to_index c = Ok (Z.of_nat (length pre))).
      { apply HI. rewrite HP, nth_error_app2, Nat.sub_diag by lia. auto. }
      destruct (IH it' (pre ++ [c]) (map_insert Z.eqb mp (Z.of_nat (length pre)) (Z.of_nat (length pre))))
        as (R & R1 & R2).
      { rewrite HP, <- app_assoc. auto. }
      { exists it1, it2. auto. }
      { intros j Hj. rewrite app_length in Hj. cbn [length] in Hj. unfold map_insert.
        destruct (Z.eqb_spec j (Z.of_nat (length pre))); [congruence|]. apply HM. lia. }
      exists R. split; auto. cbn [map app]. eapply Drains_cons; [|exact R2].
      unfold mst_next. cbn [mst_nodes mst_map mst_uf mst_heap mst_count]. rewrite Hx. cbn [bind].
      rewrite Hi. cbn [bind]. rewrite app_length. cbn [length].
      replace (Z.of_nat (length pre + 1)) with (Z.of_nat (length pre) + 1) by lia. auto.
  Qed.

  Lemma mst_finds : exists it K R,
    mst_new U H bound refs refs_next refs_hint source target weight nit = Ok it /\
    Drains next it (map (fun c => ENode (nf c)) nodes ++ R) /\
    Forall2 (Stands_for nodes) R K /\ MinSpanningForest nodes (map see l) K.
  Proof.
    destruct UOK as (Rep & U1 & U2 & _).
    assert (FOLD : forall l1 q, (forall e, In e l1 -> In e l) ->
      exists q', fold_outcome (fun q e =>
        let! a := source e in
        let! b := target e in
        Ok (heap_push H (weight e, (a, b)) q)) l1 q = Ok q' /\
        Permutation (map entry q') (map see l1 ++ map entry q)).
    { induction l1 as [|e l1 IH]; intros q Hl.
      - exists q. auto.
      - cbn [fold_outcome]. rewrite HS, HT by (apply Hl; left; auto). cbn [bind].
        destruct (IH (heap_push H (weight e, (src e, tgt e)) q)) as (q' & Q1 & Q2).
        { intros; apply Hl; right; auto. }
        exists q'. split; auto. rewrite Q2, (proj1 HOK). cbn [map entry fst snd app see].
        symmetry. apply Permutation_middle. }
    destruct (FOLD l []) as (q & Q1 & Q2); auto. cbn [map] in Q2. rewrite app_nil_r in Q2.
    assert (EI : EInv Rep (uf_new U n) q [] []).
    { split; [apply U1; lia|constructor|constructor|intros ? ? []|]. cbn [app]. symmetry. auto. }
    assert (LQ : length q = length l).
    { apply Permutation_length in Q2. rewrite !map_length in Q2. auto. }
    destruct (node_phase (uf_new U n) q (fun R => exists K, Forall2 (Stands_for nodes) R K /\
      MinSpanningForest nodes (map see l) K)) with (rest := nodes) (it := nit) (pre := @nil C)
      (mp := fun _ : Z => @None Z) as (R & (K & K1 & K2) & K3); auto.
    - intros mp cnt HM.
      destruct (edge_phase Rep U2 mp cnt HM (length q) q (uf_new U n) [] [] eq_refl ltac:(lia) EI)
        as (R & D' & R1 & R2 & R3 & R4).
      rewrite app_nil_r in R2.
      exists (map el R). split; auto. exists R.
      assert (IN : Inside nodes D').
      { intros a b w Hi. apply (inside_see a b w). eapply Permutation_in; [apply Permutation_sym, R4|auto]. }
      split.
      + assert (IR : Inside nodes R).
        { intros a b w Hi. apply (IN a b w). apply (chosen_incl _ _ R2). apply in_rev.
          rewrite rev_involutive. auto. }
        clear R1 R2. induction R as [|[[a b] w] R IH]; cbn [map]; constructor.
        * destruct (IR a b w) as [Ha Hb]; [left; auto|].
          destruct (idx_ok a Ha) as (_ & A2 & A3), (idx_ok b Hb) as (_ & B2 & B3).
          cbn [Stands_for el fst snd]. repeat split; auto; lia.
        * apply IH. intros c d x Hx. apply (IR c d x). right; auto.
      + eapply mst_perm; [apply Permutation_sym, R4|apply Permutation_sym, Permutation_rev|].
        apply (chosen_mst dec nodes ND); auto.
    - intros j Hj. cbn [length] in Hj. lia.
    - exists (mkMST (Some nit) (uf_new U n) q (fun _ => None) 0), K, R. split; auto.
      unfold mst_new. rewrite HB, HH. cbn [bind].
      rewrite (for_each_fold _ _ _ _ _ l _ _ q HR HL Q1). auto.
  Qed.
End Run.
