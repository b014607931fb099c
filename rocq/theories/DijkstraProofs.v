(** * DijkstraProofs: Dijkstra's search ends with the costs of cheapest paths, on any finite
    graph. *)

From Coq Require Import Permutation.
From Verif Require Import Machine Traverse Astar Dijkstra Spec4 Basics TraverseProofs AstarProofs.
From Coq Require Import ZifyBool ZifyNat Wellfounded.

Section Generic.
  Context {C Ed It VM : Type} (eqb : C -> C -> bool) (H : HeapOps C)
    (edges : C -> outcome It) (edges_next : It -> outcome (option Ed * It))
    (targeto : Ed -> outcome C) (target : Ed -> C) (cost : Ed -> Z)
    (visit : VM -> C -> outcome (bool * VM)) (visited : VM -> C -> outcome bool)
    (goal : option C)
    (Heqb : forall a b, eqb a b = true <-> a = b) (HH : HeapOK H)
    (board : list C) (out : C -> list Ed) (VR : VM -> list C -> Prop)
    (Hedges : forall c, In c board -> exists it, edges c = Ok it /\ Drains edges_next it (out c))
    (Hdeg : forall c, In c board -> Z.of_nat (length (out c)) + 1 < 2 ^ 72)
    (Htgt : forall c e, In c board -> In e (out c) -> targeto e = Ok (target e))
    (Hin : forall c e, In c board -> In e (out c) -> In (target e) board)
    (Hcost : forall c e, In c board -> In e (out c) -> 0 <= cost e)
    (Hvisit : forall vm M c, VR vm M -> In c board ->
       exists b vm', visit vm c = Ok (b, vm') /\ (b = true <-> ~ In c M) /\ VR vm' (c :: M))
    (Hvisited : forall vm M c, VR vm M -> In c board ->
       exists b, visited vm c = Ok b /\ (b = true <-> In c M))
    (fresh : VM) (Hfresh : VR fresh [])
    (start : C) (Hstart : In start board).

  Notation route := (GRoute target cost out).
  Notation relax := (dijkstra_relax eqb H targeto cost visited).
  Notation round := (dijkstra_round eqb H edges edges_next targeto cost visit visited goal).
  Notation heap := (list (Z * C)).
  Notation insert := (map_insert eqb).

  Lemma d_dec : forall a b : C, {a = b} + {a <> b}.
  Proof.
    intros a b. destruct (eqb a b) eqn:Ee; [left; apply Heqb; auto|right; intros Hx].
    apply Heqb in Hx. congruence.
  Qed.

  Lemma d_same : forall V (f : C -> option V) k v, insert f k v k = Some v.
  Proof. intros. unfold map_insert. rewrite (proj2 (Heqb k k) eq_refl). auto. Qed.

  Lemma d_other : forall V (f : C -> option V) k v c, c <> k -> insert f k v c = f c.
  Proof.
    intros V f k v c Hc. unfold map_insert. destruct (eqb c k) eqn:Ee; auto.
    apply Heqb in Ee. congruence.
  Qed.

  Lemma d_push : forall x q y, In y (heap_push H x q) <-> y = x \/ In y q.
  Proof.
    intros x q y. destruct HH as [HP _]. split; intros Hy.
    - apply (Permutation_in _ (HP x q)) in Hy. destruct Hy as [->|Hy]; auto.
    - apply (Permutation_in _ (Permutation_sym (HP x q))). destruct Hy as [->|Hy]; [left|right]; auto.
  Qed.

  Lemma d_snoc : forall a l k b, route a l k b -> forall e, In e (out b) ->
    route a (l ++ [target e]) (k + cost e) (target e).
  Proof.
    induction 1 as [c|a e l k b He HR IH]; intros e' He'.
    - replace (0 + cost e') with (cost e' + 0) by lia. cbn [app]. constructor; auto. constructor.
    - cbn [app]. replace (cost e + k + cost e') with (cost e + (k + cost e')) by lia.
      constructor; auto.
  Qed.

  Lemma d_board : forall a l k b, route a l k b -> In a board -> In b board /\ 0 <= k.
  Proof.
    induction 1 as [c|a e l k b He HR IH]; intros Ha; [split; auto; lia|].
    destruct IH as [H1 H2]; [eapply Hin; eauto|]. split; auto.
    pose proof (Hcost a e Ha He). lia.
  Qed.

  (** What holds between two rounds: [M] are the nodes that are done. *)
  Record Inv (M : list C) (q : heap) (sc : C -> option Z) : Prop := {
    iv_start : sc start = Some 0;
    iv_route : forall c x, sc c = Some x -> In c board /\ exists l, route start l x c;
    iv_open : forall c x, sc c = Some x -> ~ In c M -> In (x, c) q;
    iv_done : forall c, In c M -> In c board /\ exists x, sc c = Some x /\
      (forall e, In e (out c) -> exists y, sc (target e) = Some y /\ y <= x + cost e) /\
      (forall y d, In (y, d) q -> x <= y);
    iv_heap : forall y c, In (y, c) q -> exists x, sc c = Some x /\ x <= y;
    iv_nodup : NoDup M
  }.

  (** What holds within a round, for the node [v] with score [x], after the edges [es]. *)
  Record Mid (M : list C) (v : C) (x : Z) (es : list Ed) (q : heap) (sc : C -> option Z) : Prop := {
    md_start : sc start = Some 0;
    md_route : forall c x, sc c = Some x -> In c board /\ exists l, route start l x c;
    md_open : forall c x, sc c = Some x -> ~ In c M -> c <> v -> In (x, c) q;
    md_v : sc v = Some x;
    md_done : forall c, In c M -> In c board /\ exists xc, sc c = Some xc /\ xc <= x /\
      (forall e, In e (out c) -> exists y, sc (target e) = Some y /\ y <= xc + cost e);
    md_es : forall e, In e es -> exists y, sc (target e) = Some y /\ y <= x + cost e;
    md_least : forall y d, In (y, d) q -> x <= y;
    md_heap : forall y c, In (y, c) q -> exists x, sc c = Some x /\ x <= y
  }.

  Lemma relax_mid : forall M vm v x es q sc e, VR vm M -> In v board -> ~ In v M ->
    Mid M v x es q sc -> In e (out v) ->
    exists q' sc', relax vm x (q, sc) e = Ok (q', sc') /\ Mid M v x (e :: es) q' sc'.
  Proof.
    intros M vm v x es q sc e HV Hv HvM MD He.
    pose proof (Hin v e Hv He) as Ht. pose proof (Hcost v e Hv He) as Hc.
    destruct (Hvisited vm M _ HV Ht) as (b & Eb & Hb).
    unfold dijkstra_relax. rewrite (Htgt v e Hv He). cbn [bind]. rewrite Eb. cbn [bind].
    destruct MD as [I1 I2 I3 I4 I5 I6 I7 I8].
    destruct b.
    { (* the target is done *)
      exists q, sc. split; auto. constructor; auto.
      intros e' [<-|He']; auto.
      destruct (I5 (target e) (proj1 Hb eq_refl)) as (_ & y & Y1 & Y2 & _). exists y. split; auto. lia. }
    assert (HtM : ~ In (target e) M) by (intros Hx; apply Hb in Hx; discriminate).
    cbn [fst snd].
    set (t := target e) in *. set (y := x + cost e).
    assert (KEEP : forall old, sc t = Some old -> old <= y -> Mid M v x (e :: es) q sc).
    { intros old Ho Hle. constructor; auto. intros e' [<-|He']; auto. exists old. auto. }
    assert (IMP : (forall old, sc t = Some old -> y < old) ->
      Mid M v x (e :: es) (heap_push H (y, t) q) (insert sc t y)).
    { intros Hlt.
      assert (Hts : t <> start).
      { intros ->. specialize (Hlt 0 I1). destruct (I2 _ _ I4) as (_ & l & R).
        apply d_board in R; auto. subst y.
        destruct R as [_ R]. lia. }
      assert (Htv : t <> v).
      { intros Hx. rewrite Hx in Hlt. specialize (Hlt x I4). subst y. lia. }
      assert (LE : forall c z, sc c = Some z -> exists z', insert sc t y c = Some z' /\ z' <= z).
      { intros c z Hz. destruct (d_dec c t) as [->|Hn].
        - rewrite d_same. exists y. split; auto. specialize (Hlt z Hz). lia.
        - rewrite d_other by auto. exists z. split; auto. lia. }
      constructor.
      - rewrite d_other by auto. auto.
      - intros c z. destruct (d_dec c t) as [->|Hn].
        + rewrite d_same. intros [= <-]. split; auto.
          destruct (I2 _ _ I4) as (_ & l & R). exists (l ++ [t]). apply (d_snoc _ _ _ _ R e He).
        + rewrite d_other by auto. apply I2.
      - intros c z Hz HcM Hcv. apply d_push. destruct (d_dec c t) as [->|Hn].
        + rewrite d_same in Hz. injection Hz as <-. auto.
        + rewrite d_other in Hz by auto. auto.
      - rewrite d_other by auto. auto.
      - intros c HcM. destruct (I5 c HcM) as (B1 & xc & X1 & X2 & X3). split; auto.
        exists xc. rewrite d_other by (intros ->; auto). split; auto. split; auto.
        intros e' He'. destruct (X3 e' He') as (z & Z1 & Z2). destruct (LE _ _ Z1) as (z' & Z3 & Z4).
        exists z'. split; auto. lia.
      - intros e' [<-|He'].
        + exists y. fold t. rewrite d_same. split; auto. subst y. lia.
        + destruct (I6 e' He') as (z & Z1 & Z2). destruct (LE _ _ Z1) as (z' & Z3 & Z4).
          exists z'. split; auto. lia.
      - intros z d Hz. apply d_push in Hz. destruct Hz as [[= -> ->]|Hz]; [subst y; lia|eauto].
      - intros z d Hz. apply d_push in Hz. destruct Hz as [[= -> ->]|Hz].
        + exists y. rewrite d_same. split; auto. lia.
        + destruct (I8 z d Hz) as (w & W1 & W2). destruct (LE _ _ W1) as (w' & W3 & W4).
          exists w'. split; auto. lia. }
    destruct (sc t) as [old|] eqn:Eo.
    - destruct (Z.ltb_spec y old).
      + eexists _, _. split; [reflexivity|]. apply IMP. intros o [= <-]. auto.
      + eexists _, _. split; [reflexivity|]. apply (KEEP old); auto.
    - eexists _, _. split; [reflexivity|]. apply IMP. discriminate.
  Qed.

  Lemma relax_mids : forall M vm v x, VR vm M -> In v board -> ~ In v M ->
    forall l es q sc, incl l (out v) -> Mid M v x es q sc ->
    exists q' sc', fold_outcome (relax vm x) l (q, sc) = Ok (q', sc') /\
      Mid M v x (rev l ++ es) q' sc'.
  Proof.
    intros M vm v x HV Hv HvM. induction l as [|e l IH]; intros es q sc HI MD; cbn [fold_outcome].
    - exists q, sc. auto.
    - destruct (relax_mid M vm v x es q sc e HV Hv HvM MD) as (q1 & sc1 & E1 & MD1);
        [apply HI; left; auto|].
      rewrite E1. cbn [bind].
      destruct (IH (e :: es) q1 sc1) as (q' & sc' & E2 & MD2); auto.
      { intros z Hz. apply HI. right. auto. }
      exists q', sc'. split; auto. cbn [rev]. rewrite <- app_assoc. exact MD2.
  Qed.

  (** A route that is not found yet leads through an open node. *)
  Lemma route_open : forall M q sc, Inv M q sc -> forall a l k c, route a l k c -> In a board ->
    forall xa, In a M -> sc a = Some xa ->
    (In c M /\ exists x, sc c = Some x /\ x <= xa + k) \/
    (exists y d, In (y, d) q /\ y <= xa + k).
  Proof.
    intros M q sc IV a l k c HR. induction HR as [c|a e l k c He HR IH]; intros Ha xa HM Hx.
    - left. split; auto. exists xa. split; auto. lia.
    - destruct (iv_done _ _ _ IV a HM) as (_ & x' & X1 & X2 & _). rewrite Hx in X1. injection X1 as <-.
      destruct (X2 e He) as (y & Y1 & Y2).
      pose proof (Hin a e Ha He) as Ht.
      destruct (d_board _ _ _ _ HR Ht) as [_ Hk].
      destruct (in_dec d_dec (target e) M) as [Hd|Hd].
      + destruct (IH Ht y Hd Y1) as [(P & x & P1 & P2)|(z & d & P1 & P2)].
        * left. split; auto. exists x. split; auto. lia.
        * right. exists z, d. split; auto. lia.
      + right. exists y, (target e). split; [eapply iv_open; eauto|lia].
  Qed.

  Lemma route_found : forall M q sc, Inv M q sc -> forall l k c, route start l k c ->
    (In c M /\ exists x, sc c = Some x /\ x <= k) \/ (exists y d, In (y, d) q /\ y <= k).
  Proof.
    intros M q sc IV l k c HR. destruct (in_dec d_dec start M) as [HM|HM].
    - destruct (route_open M q sc IV _ _ _ _ HR Hstart 0 HM (iv_start _ _ _ IV)) as [P|P]; [left|right];
        exact P.
    - right. exists 0, start. split; [apply (iv_open _ _ _ IV); auto; apply (iv_start _ _ _ IV)|].
      apply (d_board _ _ _ _ HR Hstart).
  Qed.

  (** What the search answers. *)
  Definition Post (r : C -> option Z) : Prop :=
    (forall c x, r c = Some x -> In c board /\ exists l, route start l x c) /\
    (forall l k c, route start l k c ->
       (exists x, r c = Some x /\ x <= k) \/
       (exists b x, goal = Some b /\ r b = Some x /\ x <= k)).

  Lemma inv_init : Inv [] (heap_push H (0, start) []) (insert (fun _ => None) start 0).
  Proof.
    constructor.
    - apply d_same.
    - intros c x. destruct (d_dec c start) as [->|Hn].
      + rewrite d_same. intros [= <-]. split; auto. exists [start]. constructor.
      + rewrite d_other by auto. discriminate.
    - intros c x. destruct (d_dec c start) as [->|Hn].
      + rewrite d_same. intros [= <-] _. apply d_push. auto.
      + rewrite d_other by auto. discriminate.
    - intros c [].
    - intros y c Hy. apply d_push in Hy. destruct Hy as [[= -> ->]|[]].
      exists 0. rewrite d_same. split; auto. lia.
    - constructor.
  Qed.

  Lemma round_returns : forall a b M q sc vm, VR vm M -> Inv M q sc ->
    (length board - length M <= a)%nat -> (length q <= b)%nat ->
    exists r, Returns round (mkD q sc vm) r /\ Post r.
  Proof.
    induction a as [a IHa] using (well_founded_induction Wf_nat.lt_wf).
    induction b as [b IHb] using (well_founded_induction Wf_nat.lt_wf).
    intros M q sc vm HV IV Ha Hb.
    destruct HH as [HP HPop]. pose proof (HPop q) as Hq.
    destruct (heap_pop H q) as [[[ns v] q']|] eqn:Eq.
    2:{ subst q. exists sc. split.
        - apply returns_now. unfold dijkstra_round. cbn [d_heap d_scores]. rewrite Eq. auto.
        - split; [apply (iv_route _ _ _ IV)|]. intros l k c HR.
          destruct (route_found M [] sc IV l k c HR) as [(_ & P)|(y & d & [] & _)]. auto. }
    destruct Hq as [HPerm Hmin]. cbn [fst] in Hmin.
    assert (Hvq : In (ns, v) q).
    { apply (Permutation_in _ (Permutation_sym HPerm)). left; auto. }
    assert (Hqq : forall z, In z q' -> In z q).
    { intros z Hz. apply (Permutation_in _ (Permutation_sym HPerm)). right; auto. }
    destruct (iv_heap _ _ _ IV ns v Hvq) as (x & X1 & X2).
    destruct (iv_route _ _ _ IV v x X1) as (Hv & lv & Rv).
    destruct (Hvisited vm M v HV Hv) as (bv & Ev & Hbv).
    destruct bv.
    { (* already done *)
      assert (HvM : In v M) by (apply Hbv; auto).
      destruct (IHb (length q')) with (M := M) (q := q') (sc := sc) (vm := vm) as (r & R1 & R2); auto.
      - rewrite (Permutation_length HPerm) in Hb. cbn [length] in Hb. lia.
      - destruct IV as [I1 I2 I3 I4 I5 I6]. constructor; auto.
        + intros c z Hz HcM. specialize (I3 c z Hz HcM).
          apply (Permutation_in _ HPerm) in I3. destruct I3 as [[= -> ->]|I3]; [tauto|auto].
        + intros c HcM. destruct (I4 c HcM) as (B1 & xc & Y1 & Y2 & Y3). split; auto.
          exists xc. split; auto. split; auto. intros y d Hy. apply (Y3 y d). auto.
      - exists r. split; auto. eapply returns_later; [|exact R1].
        unfold dijkstra_round. cbn [d_heap d_scores d_visited]. rewrite Eq, Ev. auto. }
    assert (HvM : ~ In v M) by (intros Hx; apply Hbv in Hx; discriminate).
    pose proof (iv_open _ _ _ IV v x X1 HvM) as Hxq. specialize (Hmin _ Hxq) as Hxn. cbn [fst] in Hxn.
    assert (ns = x) by lia. subst ns. clear X2 Hxn.
    destruct (match goal with Some g => eqb g v | None => false end) eqn:Eg.
    { (* the goal *)
      assert (Hg : goal = Some v).
      { clear - Eg Heqb. destruct goal as [g|]; [|discriminate]. f_equal. apply Heqb. auto. }
      exists sc. split.
      - apply returns_now. unfold dijkstra_round. cbn [d_heap d_scores d_visited]. rewrite Eq, Ev.
        cbn [bind]. rewrite Eg. auto.
      - split; [apply (iv_route _ _ _ IV)|]. intros l k c HR.
        destruct (route_found M q sc IV l k c HR) as [(_ & P)|(y & d & P1 & P2)]; [auto|].
        right. exists v, x. split; auto. split; auto. specialize (Hmin _ P1). cbn [fst] in Hmin. lia. }
    destruct (Hedges v Hv) as (it & Eit & Dit).
    destruct (relax_mids M vm v x HV Hv HvM (out v) [] q' sc) as (q1 & sc1 & E1 & MD).
    { apply incl_refl. }
    { destruct IV as [I1 I2 I3 I4 I5 I6]. constructor; auto.
      - intros c z Hz HcM Hcv. specialize (I3 c z Hz HcM).
        apply (Permutation_in _ HPerm) in I3. destruct I3 as [[= -> ->]|I3]; [tauto|auto].
      - intros c HcM. destruct (I4 c HcM) as (B1 & xc & Y1 & Y2 & Y3). split; auto.
        exists xc. split; auto. split; auto. eapply Y3; eauto.
      - intros e [].
      - intros y d Hy. apply (Hmin (y, d)). auto. }
    destruct (Hvisit vm M v HV Hv) as (bb & vm' & Ev' & _ & HV').
    destruct (IHa (length board - length (v :: M))%nat) with (b := length q1) (M := v :: M) (q := q1)
      (sc := sc1) (vm := vm') as (r & R1 & R2); auto.
    - assert (NoDup (v :: M)) as ND by (constructor; auto; apply (iv_nodup _ _ _ IV)).
      assert (length (v :: M) <= length board)%nat.
      { apply NoDup_incl_length; auto. intros c [<-|Hc]; auto. apply (iv_done _ _ _ IV c Hc). }
      cbn [length] in *. lia.
    - destruct MD as [J1 J2 J3 J4 J5 J6 J7 J8]. constructor; auto.
      + intros c z Hz HcM. apply J3; auto; [intros Hx; apply HcM; right; auto|].
        intros ->. apply HcM. left; auto.
      + intros c [<-|Hc].
        * split; auto. exists x. split; auto. split; eauto. intros e He. apply J6.
          rewrite app_nil_r. apply -> in_rev. auto.
        * destruct (J5 c Hc) as (B1 & xc & Y1 & Y2 & Y3). split; auto. exists xc. split; auto.
          split; auto. intros y d Hy. specialize (J7 y d Hy). lia.
      + constructor; auto. apply (iv_nodup _ _ _ IV).
    - exists r. split; auto. eapply returns_later; [|exact R1].
      unfold dijkstra_round. cbn [d_heap d_scores d_visited]. rewrite Eq, Ev. cbn [bind].
      rewrite Eg, Eit. cbn [bind].
      rewrite (for_each_fold _ _ _ _ _ _ _ _ _ Dit (Hdeg v Hv) E1). cbn [bind].
      rewrite Ev'. cbn [bind]. reflexivity.
  Qed.

  Theorem dijkstra_ok : exists r, Returns round (dijkstra_init eqb H fresh start) r /\ Post r.
  Proof.
    eapply round_returns with (M := []); eauto using inv_init.
  Qed.

  (** ** In terms of the code's edges *)

  Notation Rt := (Route edges edges_next targeto cost).

  Theorem dijkstra_answers : exists r, Returns round (dijkstra_init eqb H fresh start) r /\
    (forall c x, r c = Some x -> In c board /\ exists p, Rt start p x c) /\
    (forall p k c, Rt start p k c ->
       (exists x, r c = Some x /\ x <= k) \/
       (exists b x, goal = Some b /\ r b = Some x /\ x <= k)).
  Proof.
    destruct dijkstra_ok as (r & HR & P1 & P2). exists r. split; auto.
    pose proof (route_iff edges edges_next targeto target cost board out Hedges Htgt Hin) as RI.
    split.
    - intros c x Hx. destruct (P1 c x Hx) as (Hc & l & R). split; auto. exists l. apply RI; auto.
    - intros p k c R. apply (P2 p k c). apply RI; auto.
  Qed.
End Generic.
