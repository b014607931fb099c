(** * AstarProofs: A* ends, and finds a cheapest path, on any finite graph. *)

From Coq Require Import Permutation.
From Verif Require Import Machine Traverse Astar Spec4 Basics TraverseProofs.
From Coq Require Import ZifyBool ZifyNat Wellfounded Relations.

Section Generic.
  Context {C Ed It : Type} (eqb : C -> C -> bool) (H : HeapOps C)
    (edges : C -> outcome It) (edges_next : It -> outcome (option Ed * It))
    (targeto : Ed -> outcome C) (target : Ed -> C) (cost : Ed -> Z) (est : C -> Z) (goal : C -> bool)
    (Heqb : forall a b, eqb a b = true <-> a = b) (HH : HeapOK H)
    (board : list C) (out : C -> list Ed)
    (Hedges : forall c, In c board -> exists it, edges c = Ok it /\ Drains edges_next it (out c))
    (Hdeg : forall c, In c board -> Z.of_nat (length (out c)) + 1 < 2 ^ 72)
    (Hsize : Z.of_nat (length board) < 2 ^ 72)
    (Htgt : forall c e, In c board -> In e (out c) -> targeto e = Ok (target e))
    (Hin : forall c e, In c board -> In e (out c) -> In (target e) board)
    (Hcost : forall c e, In c board -> In e (out c) -> 0 <= cost e)
    (start : C) (Hstart : In start board).

  Notation state := (AState (C := C)).
  Notation insert := (map_insert eqb).
  Notation round := (astar_round eqb H edges edges_next targeto cost est goal).

  Lemma insert_same : forall V (f : C -> option V) k v, insert f k v k = Some v.
  Proof. intros. unfold map_insert. rewrite (proj2 (Heqb k k) eq_refl). auto. Qed.

  Lemma insert_other : forall V (f : C -> option V) k v c, c <> k -> insert f k v c = f c.
  Proof.
    intros V f k v c Hc. unfold map_insert. destruct (eqb c k) eqn:Ee; auto.
    apply Heqb in Ee. congruence.
  Qed.

  Lemma c_dec : forall a b : C, a = b \/ a <> b.
  Proof.
    intros a b. destruct (eqb a b) eqn:Ee; [left; apply Heqb; auto|right; intros Hx].
    apply Heqb in Hx. congruence.
  Qed.

  Lemma in_push : forall x q y, In y (heap_push H x q) <-> y = x \/ In y q.
  Proof.
    intros x q y. destruct HH as [HP _]. split; intros Hy.
    - apply (Permutation_in _ (HP x q)) in Hy. destruct Hy as [->|Hy]; auto.
    - apply (Permutation_in _ (Permutation_sym (HP x q))). destruct Hy as [->|Hy]; [left|right]; auto.
  Qed.

  (** ** Routes *)

  (** [GRoute a l k b]: the nodes [l] lead from [a] to [b] along edges of total cost [k]. *)
  Inductive GRoute : C -> list C -> Z -> C -> Prop :=
  | gr_here c : GRoute c [c] 0 c
  | gr_step a e l k b : In e (out a) -> GRoute (target e) l k b -> GRoute a (a :: l) (cost e + k) b.

  Lemma route_snoc : forall a l k b, GRoute a l k b -> forall e, In e (out b) ->
    GRoute a (l ++ [target e]) (k + cost e) (target e).
  Proof.
    induction 1 as [c|a e l k b He HR IH]; intros e' He'.
    - replace (0 + cost e') with (cost e' + 0) by lia. cbn [app].
      eapply gr_step; auto. constructor.
    - cbn [app]. replace (cost e + k + cost e') with (cost e + (k + cost e')) by lia.
      apply gr_step; auto.
  Qed.

  Lemma route_board : forall a l k b, GRoute a l k b -> In a board -> In b board /\ 0 <= k.
  Proof.
    induction 1 as [c|a e l k b He HR IH]; intros Ha; [split; auto; lia|].
    destruct IH as [H1 H2]; [eapply Hin; eauto|]. split; auto.
    pose proof (Hcost a e Ha He). lia.
  Qed.

  (** ** The recorded predecessors *)

  Inductive Chain (came : C -> option C) : C -> list C -> Prop :=
  | ch_start : came start = None -> Chain came start [start]
  | ch_step v p l : came v = Some p -> Chain came p l -> Chain came v (l ++ [v]).

  Lemma chain_det : forall came v l, Chain came v l -> forall l', Chain came v l' -> l = l'.
  Proof.
    induction 1 as [Hn|v p l Hv HC IH]; intros l' HC'; inversion HC'; subst; try congruence.
    rewrite Hv in *. match goal with H : Some _ = Some _ |- _ => injection H as <- end.
    f_equal. auto.
  Qed.

  Lemma chain_last : forall came v l, Chain came v l -> exists l', l = l' ++ [v].
  Proof. intros came v l []; [exists []; auto|eauto]. Qed.

  Lemma chain_prefix : forall came v l, Chain came v l -> forall l1 c l2, l = l1 ++ c :: l2 ->
    Chain came c (l1 ++ [c]).
  Proof.
    induction 1 as [Hn|v p l Hv HC IH]; intros l1 c l2 E.
    - destruct l1 as [|x l1]; cbn [app] in E.
      + injection E as <- _. cbn [app]. constructor. auto.
      + injection E as _ E. destruct l1; discriminate.
    - destruct (list_rev_case _ l2) as [->|(l2' & z & ->)].
      + apply app_inj_tail in E. destruct E as [-> ->]. econstructor; eauto.
      + rewrite app_comm_cons, app_assoc in E. apply app_inj_tail in E. destruct E as [E _].
        eapply IH. exact E.
  Qed.

  Lemma chain_no_repeat : forall came v l, Chain came v l ->
    forall l1 c l2 l3, l <> l1 ++ c :: l2 ++ c :: l3.
  Proof.
    intros came v l HC l1 c l2 l3 E.
    pose proof (chain_prefix _ _ _ HC l1 c (l2 ++ c :: l3) E) as C1.
    assert (E2 : l = (l1 ++ c :: l2) ++ c :: l3) by (rewrite <- app_assoc; exact E).
    pose proof (chain_prefix _ _ _ HC _ c l3 E2) as C2.
    pose proof (chain_det _ _ _ C1 _ C2) as E3. apply (f_equal (@length C)) in E3.
    rewrite !app_length in E3. cbn [length] in E3. lia.
  Qed.

  Lemma NoDup_no_repeat : forall l : list C,
    (forall l1 c l2 l3, l <> l1 ++ c :: l2 ++ c :: l3) -> NoDup l.
  Proof.
    induction l as [|x l IH]; intros HN; [constructor|]. constructor.
    - intros Hx. apply in_split in Hx. destruct Hx as (l2 & l3 & ->).
      apply (HN [] x l2 l3). reflexivity.
    - apply IH. intros l1 c l2 l3 ->. apply (HN (x :: l1) c l2 l3). reflexivity.
  Qed.

  Lemma chain_nodup : forall came v l, Chain came v l -> NoDup l.
  Proof. intros came v l HC. apply NoDup_no_repeat. eapply chain_no_repeat; eauto. Qed.

  Lemma reconstruct_chain : forall came v l, Chain came v l -> Z.of_nat (length l) < 2 ^ 72 ->
    reconstruct came v = Ok l.
  Proof.
    intros came v l HC Hl. unfold reconstruct.
    match goal with |- loop ?b _ = _ => set (body := b) end.
    assert (HR : forall acc, Rounds body (length l - 1) (v, v :: acc) (Ok (l ++ acc))).
    { clear Hl. induction HC as [Hn|v p l Hv HC IH]; intros acc.
      - apply R_done. subst body. cbn [fst snd]. rewrite Hn. reflexivity.
      - rewrite app_length. cbn [length].
        destruct (chain_last _ _ _ HC) as (l' & El).
        replace (length l + 1 - 1)%nat with (S (length l - 1))
          by (rewrite El, app_length; cbn [length]; lia).
        eapply R_more.
        + subst body. cbv beta. cbn [fst snd]. rewrite Hv. reflexivity.
        + cbn [snd]. rewrite <- app_assoc. cbn [app]. apply IH. }
    specialize (HR []). rewrite app_nil_r in HR. eapply loop_rounds; [exact HR|]. lia.
  Qed.

  (** ** The invariant *)

  (** [cur v]: [v] is being expanded. *)
  Record Inv (cur : C -> Prop) (st : state) : Prop := {
    i_start : a_scores st start = Some 0;
    i_scored : forall v x, a_scores st v = Some x -> In v board /\ 0 <= x;
    i_heap : forall f v, In (f, v) (a_heap st) ->
      exists x, a_scores st v = Some x /\ x + est v <= f;
    i_est : forall v f, a_ests st v = Some f ->
      goal v = false /\ exists x, a_scores st v = Some x /\ x + est v <= f;
    i_open : forall v x, a_scores st v = Some x ->
      In (x + est v, v) (a_heap st) \/ a_ests st v = Some (x + est v);
    i_closed : forall v x, a_scores st v = Some x -> a_ests st v = Some (x + est v) -> ~ cur v ->
      forall e, In e (out v) -> exists y, a_scores st (target e) = Some y /\ y <= x + cost e;
    i_came_start : a_came st start = None;
    i_came : forall u p, a_came st u = Some p -> exists x y e, a_scores st p = Some x /\
      a_scores st u = Some y /\ In e (out p) /\ target e = u /\ x + cost e <= y;
    i_chain : forall v x, a_scores st v = Some x -> exists l, Chain (a_came st) v l }.

  (** Along a chain the scores do not grow towards the start. *)
  Lemma chain_scores : forall cur st, Inv cur st -> forall v l, Chain (a_came st) v l ->
    forall x, a_scores st v = Some x ->
    exists k, GRoute start l k v /\ k <= x /\
      forall u, In u l -> exists y, a_scores st u = Some y /\ y <= x.
  Proof.
    intros cur st I v l HC. induction HC as [Hn|v p l Hv HC IH]; intros x Hx.
    - exists 0. split; [constructor|]. rewrite (i_start _ _ I) in Hx. injection Hx as <-.
      split; [lia|]. intros u [<-|[]]. exists 0. split; [apply (i_start _ _ I)|lia].
    - destruct (i_came _ _ I v p Hv) as (xp & y & e & H1 & H2 & H3 & H4 & H5).
      rewrite Hx in H2. injection H2 as <-.
      destruct (IH xp H1) as (k & R & Hk & HU). subst v.
      destruct (i_scored _ _ I _ _ H1) as [Hb _]. pose proof (Hcost p e Hb H3) as Hc.
      exists (k + cost e). split; [eapply route_snoc; eauto|]. split; [lia|].
      intros u Hu. apply in_app_or in Hu. destruct Hu as [Hu|[<-|[]]].
      + destruct (HU u Hu) as (yu & E1 & E2). exists yu. split; auto. lia.
      + exists x. split; auto. lia.
  Qed.

  Lemma chain_keep : forall came u v, u <> start ->
    forall w lw, Chain came w lw -> ~ In u lw -> Chain (insert came u v) w lw.
  Proof.
    intros came u v Hus. induction 1 as [Hn|w p l Hw HC IH]; intros Hni.
    - constructor. rewrite insert_other; auto.
    - rewrite in_app_iff in Hni. cbn [In] in Hni.
      apply ch_step with (p := p); [rewrite insert_other; auto|apply IH]; tauto.
  Qed.

  Lemma chain_update : forall came u v lv, Chain came v lv -> ~ In u lv -> u <> start ->
    forall w lw, Chain came w lw -> exists lw', Chain (insert came u v) w lw'.
  Proof.
    intros came u v lv HV Hu Hus.
    assert (HU : Chain (insert came u v) u (lv ++ [u])).
    { apply ch_step with (p := v); [apply insert_same|]. apply chain_keep; auto. }
    induction 1 as [Hn|w p l Hw HC IH].
    - exists [start]. constructor. rewrite insert_other; auto.
    - destruct (c_dec w u) as [->|Hne]; [eauto|].
      destruct IH as (l' & IH). exists (l' ++ [w]). apply ch_step with (p := p); auto.
      rewrite insert_other; auto.
  Qed.

  (** ** Progress *)

  Definition unscored (st : state) : nat :=
    fold_right (fun c n => match a_scores st c with Some _ => n | None => S n end) 0%nat board.
  Definition total (st : state) : nat :=
    fold_right (fun c n => match a_scores st c with
                           | Some x => Z.to_nat x + n | None => n end)%nat 0%nat board.

  Definition Less (a b : state) : Prop :=
    (unscored a < unscored b)%nat \/
    (unscored a = unscored b /\ (total a < total b)%nat).
  Definition Same (a b : state) : Prop := a_scores a = a_scores b /\ a_heap a = a_heap b.

  Lemma less_trans : forall a b c, Less a b -> Less b c -> Less a c.
  Proof. unfold Less. intros a b c. lia. Qed.

  Lemma improve_less : forall st st' u y, In u board -> 0 <= y ->
    a_scores st' = insert (a_scores st) u y ->
    (forall x, a_scores st u = Some x -> y < x) -> Less st' st.
  Proof.
    intros st st' u y Hu Hy E Hx. unfold Less, unscored, total. rewrite E.
    destruct (a_scores st u) as [x|] eqn:Es.
    - specialize (Hx x eq_refl). right. split.
      + clear - Es Heqb. induction board as [|c l IH]; cbn [fold_right]; auto. rewrite IH.
        destruct (c_dec c u) as [->|Hne].
        * rewrite insert_same, Es. auto.
        * rewrite insert_other by auto. auto.
      + assert (LE : forall l, (fold_right (fun c n => match insert (a_scores st) u y c with
            | Some x => Z.to_nat x + n | None => n end) 0 l <=
          fold_right (fun c n => match a_scores st c with
            | Some x => Z.to_nat x + n | None => n end) 0 l)%nat).
        { induction l as [|c l IH]; cbn [fold_right]; auto.
          destruct (c_dec c u) as [->|Hne].
          - rewrite insert_same, Es. lia.
          - rewrite insert_other by auto. destruct (a_scores st c); lia. }
        revert Hu. generalize board as l. induction l as [|c l IH]; [intros []|]. intros Hu.
        cbn [fold_right]. specialize (LE l). destruct (c_dec c u) as [->|Hne].
        * rewrite insert_same, Es. lia.
        * rewrite insert_other by auto. destruct Hu as [->|Hu]; [congruence|]. specialize (IH Hu).
          destruct (a_scores st c); lia.
    - left.
      assert (LE : forall l, (fold_right (fun c n => match insert (a_scores st) u y c with
            | Some _ => n | None => S n end) 0 l <=
          fold_right (fun c n => match a_scores st c with
            | Some _ => n | None => S n end) 0 l)%nat).
      { induction l as [|c l IH]; cbn [fold_right]; auto.
        destruct (c_dec c u) as [->|Hne].
        - rewrite insert_same, Es. lia.
        - rewrite insert_other by auto. destruct (a_scores st c); lia. }
      revert Hu. generalize board as l. induction l as [|c l IH]; [intros []|]. intros Hu.
      cbn [fold_right]. specialize (LE l). destruct (c_dec c u) as [->|Hne].
      + rewrite insert_same, Es. lia.
      + rewrite insert_other by auto. destruct Hu as [->|Hu]; [congruence|]. specialize (IH Hu).
        destruct (a_scores st c); lia.
  Qed.

  (** ** Looking at one edge *)

  Lemma relax_inv : forall v x st e, Inv (eq v) st -> In v board -> a_scores st v = Some x ->
    In e (out v) ->
    exists st', relax eqb H targeto cost est v x st e = Ok st' /\ Inv (eq v) st' /\
      a_scores st' v = Some x /\
      (forall u y, a_scores st u = Some y -> exists y', a_scores st' u = Some y' /\ y' <= y) /\
      (exists y, a_scores st' (target e) = Some y /\ y <= x + cost e) /\
      (Same st' st \/ Less st' st).
  Proof.
    intros v x st e I Hv Hx He. pose proof (Hin v e Hv He) as Hu. pose proof (Hcost v e Hv He) as Hc.
    destruct (i_scored _ _ I v x Hx) as [_ Hx0].
    set (u := target e) in *. unfold relax. rewrite (Htgt v e Hv He). cbn [bind]. fold u. cbv zeta.
    assert (IMP : (forall y, a_scores st u = Some y -> x + cost e < y) -> exists st',
      Ok (mkA (heap_push H (x + cost e + est u, u) (a_heap st))
        (insert (a_scores st) u (x + cost e)) (a_ests st) (insert (a_came st) u v)) = Ok st' /\
      Inv (eq v) st' /\ a_scores st' v = Some x /\
      (forall u y, a_scores st u = Some y -> exists y', a_scores st' u = Some y' /\ y' <= y) /\
      (exists y, a_scores st' u = Some y /\ y <= x + cost e) /\
      (Same st' st \/ Less st' st)).
    { intros Hlt.
      assert (Huv : u <> v).
      { intros Eu. rewrite <- Eu in Hx. apply Hlt in Hx. lia. }
      assert (Hus : u <> start).
      { intros Eu. pose proof (i_start _ _ I) as Hs. rewrite <- Eu in Hs. apply Hlt in Hs. lia. }
      eexists. split; [reflexivity|]. split; [|split; [|split; [|split]]].
      - constructor; cbn [a_heap a_scores a_ests a_came].
        + rewrite insert_other by auto. apply (i_start _ _ I).
        + intros w y Hw. destruct (c_dec w u) as [->|Hne].
          * rewrite insert_same in Hw. injection Hw as <-. split; auto. lia.
          * rewrite insert_other in Hw by auto. apply (i_scored _ _ I); auto.
        + intros f w Hw. apply in_push in Hw. destruct (c_dec w u) as [->|Hne].
          * exists (x + cost e). rewrite insert_same. split; auto.
            destruct Hw as [Hw|Hw]; [injection Hw as ->; lia|].
            destruct (i_heap _ _ I _ _ Hw) as (y & Y1 & Y2). apply Hlt in Y1. lia.
          * destruct Hw as [Hw|Hw]; [congruence|]. rewrite insert_other by auto.
            apply (i_heap _ _ I); auto.
        + intros w f Hw. destruct (i_est _ _ I _ _ Hw) as (G1 & y & Y1 & Y2). split; auto.
          destruct (c_dec w u) as [->|Hne].
          * exists (x + cost e). rewrite insert_same. split; auto. apply Hlt in Y1. lia.
          * exists y. rewrite insert_other by auto. auto.
        + intros w y Hw. destruct (c_dec w u) as [->|Hne].
          * rewrite insert_same in Hw. injection Hw as <-. left. apply in_push. left; auto.
          * rewrite insert_other in Hw by auto.
            destruct (i_open _ _ I _ _ Hw) as [Ho|Ho]; auto. left. apply in_push. auto.
        + intros w y Hw Hes Hcur e' He'. destruct (c_dec w u) as [->|Hne].
          * rewrite insert_same in Hw. injection Hw as <-. exfalso.
            destruct (i_est _ _ I _ _ Hes) as (_ & y & Y1 & Y2). apply Hlt in Y1. lia.
          * rewrite insert_other in Hw by auto.
            destruct (i_closed _ _ I w y Hw Hes Hcur e' He') as (z & Z1 & Z2).
            destruct (c_dec (target e') u) as [Et|Hne'].
            -- rewrite Et in *. exists (x + cost e). rewrite insert_same. split; auto.
               apply Hlt in Z1. lia.
            -- exists z. rewrite insert_other by auto. auto.
        + rewrite insert_other by auto. apply (i_came_start _ _ I).
        + intros w p Hw. destruct (c_dec w u) as [->|Hne].
          * rewrite insert_same in Hw. injection Hw as <-. exists x, (x + cost e), e.
            rewrite insert_same, insert_other by auto. repeat split; auto. lia.
          * rewrite insert_other in Hw by auto.
            destruct (i_came _ _ I _ _ Hw) as (a & b & e' & A1 & A2 & A3 & A4 & A5).
            destruct (c_dec p u) as [->|Hnp].
            -- exists (x + cost e), b, e'. rewrite insert_same, insert_other by auto.
               repeat split; auto. apply Hlt in A1. lia.
            -- exists a, b, e'. rewrite !insert_other by auto. repeat split; auto.
        + destruct (i_chain _ _ I v x Hx) as (lv & CV).
          destruct (chain_scores _ _ I v lv CV x Hx) as (k & _ & _ & HU).
          assert (Hni : ~ In u lv).
          { intros Hi. destruct (HU u Hi) as (y & Y1 & Y2). apply Hlt in Y1. lia. }
          intros w y Hw. destruct (c_dec w u) as [->|Hne].
          * destruct (a_scores st u) as [yu|] eqn:Eu.
            -- destruct (i_chain _ _ I u yu Eu) as (lu & CU). eapply chain_update; eauto.
            -- exists (lv ++ [u]). apply ch_step with (p := v); [apply insert_same|].
               apply chain_keep; auto.
          * rewrite insert_other in Hw by auto.
            destruct (i_chain _ _ I w y Hw) as (lw & CW). eapply chain_update; eauto.
      - cbn [a_scores]. rewrite insert_other; auto.
      - cbn [a_scores]. intros w y Hw. destruct (c_dec w u) as [->|Hne].
        + exists (x + cost e). rewrite insert_same. split; auto. apply Hlt in Hw. lia.
        + exists y. rewrite insert_other by auto. split; auto. lia.
      - cbn [a_scores]. exists (x + cost e). rewrite insert_same. split; auto. lia.
      - right. eapply improve_less with (u := u) (y := x + cost e); auto. lia. }
    destruct (a_scores st u) as [old|] eqn:Eu.
    - destruct (old <=? x + cost e) eqn:El.
      + exists st. split; auto. split; auto. split; auto. split; [|split].
        * intros w y Hw. exists y. split; auto. lia.
        * exists old. split; auto. lia.
        * left. split; auto.
      + apply IMP. intros y Hy. injection Hy as <-. lia.
    - apply IMP. intros y Hy. congruence.
  Qed.

  Lemma relax_all : forall v x es st, Inv (eq v) st -> In v board -> a_scores st v = Some x ->
    incl es (out v) ->
    exists st', fold_outcome (relax eqb H targeto cost est v x) es st = Ok st' /\ Inv (eq v) st' /\
      a_scores st' v = Some x /\
      (forall u y, a_scores st u = Some y -> exists y', a_scores st' u = Some y' /\ y' <= y) /\
      (forall e, In e es -> exists y, a_scores st' (target e) = Some y /\ y <= x + cost e) /\
      (Same st' st \/ Less st' st).
  Proof.
    intros v x. induction es as [|e es IH]; intros st I Hv Hx Hes.
    - exists st. split; auto. split; auto. split; auto. split; [|split].
      + intros u y Hu. exists y. split; auto. lia.
      + intros e [].
      + left. split; auto.
    - destruct (relax_inv v x st e I Hv Hx (Hes e (or_introl eq_refl)))
        as (st1 & E1 & I1 & X1 & M1 & R1 & P1).
      destruct (IH st1 I1 Hv X1) as (st2 & E2 & I2 & X2 & M2 & R2 & P2);
        [intros z Hz; apply Hes; right; auto|].
      exists st2. cbn [fold_outcome]. rewrite E1. cbn [bind]. split; auto. split; auto. split; auto.
      split; [|split].
      + intros u y Hu. destruct (M1 u y Hu) as (y1 & Y1 & Y2). destruct (M2 u y1 Y1) as (y2 & Z1 & Z2).
        exists y2. split; auto. lia.
      + intros e' [<-|He']; auto. destruct R1 as (y1 & Y1 & Y2).
        destruct (M2 _ y1 Y1) as (y2 & Z1 & Z2). exists y2. split; auto. lia.
      + destruct P1 as [[S1 S2]|L1], P2 as [[T1 T2]|L2].
        * left. split; congruence.
        * right. unfold Less, unscored, total in *. rewrite <- S1. auto.
        * right. unfold Less, unscored, total in *. rewrite T1. auto.
        * right. eapply less_trans; eauto.
  Qed.

  (** ** One round *)

  Lemma inv_init : Inv (fun _ => False) (astar_init eqb H est start).
  Proof.
    constructor; cbn [astar_init a_heap a_scores a_ests a_came].
    - apply insert_same.
    - intros v x Hx. destruct (c_dec v start) as [->|Hne].
      + rewrite insert_same in Hx. injection Hx as <-. split; auto. lia.
      + rewrite insert_other in Hx by auto. discriminate.
    - intros f v Hv. apply in_push in Hv. destruct Hv as [Hv|[]]. injection Hv as -> ->.
      exists 0. rewrite insert_same. split; auto. lia.
    - discriminate.
    - intros v x Hx. destruct (c_dec v start) as [->|Hne].
      + rewrite insert_same in Hx. injection Hx as <-. left. apply in_push. left. reflexivity.
      + rewrite insert_other in Hx by auto. discriminate.
    - discriminate.
    - auto.
    - discriminate.
    - intros v x Hx. destruct (c_dec v start) as [->|Hne].
      + exists [start]. constructor. auto.
      + rewrite insert_other in Hx by auto. discriminate.
  Qed.

  Definition Fewer (a b : state) : Prop :=
    Less a b \/ (a_scores a = a_scores b /\ (length (a_heap a) < length (a_heap b))%nat).

  Lemma round_step : forall st, Inv (fun _ => False) st ->
    (a_heap st = [] /\ round st = Ok (inr None)) \/
    (exists f v x l k, In (f, v) (a_heap st) /\ (forall y, In y (a_heap st) -> f <= fst y) /\
      goal v = true /\ a_scores st v = Some x /\ x + est v <= f /\
      GRoute start l k v /\ k <= x /\ round st = Ok (inr (Some (x, l)))) \/
    (exists st', round st = Ok (inl st') /\ Inv (fun _ => False) st' /\ Fewer st' st).
  Proof.
    intros st I. unfold astar_round.
    destruct HH as [_ HP]. specialize (HP (a_heap st)).
    destruct (heap_pop H (a_heap st)) as [[[f v] q]|]; [|left; auto].
    destruct HP as [HP Hmin]. cbn [fst] in Hmin. right.
    assert (Hq : forall y, In y q -> In y (a_heap st)).
    { intros y Hy. apply (Permutation_in _ (Permutation_sym HP)). right; auto. }
    assert (Hq' : forall y, In y (a_heap st) -> y = (f, v) \/ In y q).
    { intros y Hy. apply (Permutation_in _ HP) in Hy. destruct Hy; auto. }
    assert (Hfv : In (f, v) (a_heap st)).
    { apply (Permutation_in _ (Permutation_sym HP)). left; auto. }
    destruct (i_heap _ _ I _ _ Hfv) as (x & Hx & Hxf). rewrite Hx.
    destruct (i_scored _ _ I _ _ Hx) as [Hb Hx0].
    destruct (goal v) eqn:Eg.
    - left. destruct (i_chain _ _ I v x Hx) as (l & HC).
      destruct (chain_scores _ _ I v l HC x Hx) as (k & HR & Hk & HU).
      exists f, v, x, l, k. repeat split; auto.
      rewrite (reconstruct_chain _ _ _ HC); [reflexivity|].
      assert (length l <= length board)%nat; [|lia].
      apply NoDup_incl_length; [eapply chain_nodup; eauto|].
      intros u Hu. destruct (HU u Hu) as (y & Y1 & _). apply (i_scored _ _ I _ _ Y1).
    - right.
      assert (Hlen : length (a_heap st) = S (length q)) by (rewrite (Permutation_length HP); auto).
      destruct (match a_ests st v with Some e => e <=? f | None => false end) eqn:Es.
      + eexists. split; [reflexivity|]. split.
        * destruct I as [I1 I2 I3 I4 I5 I6 I7 I8 I9].
          constructor; cbn [a_heap a_scores a_ests a_came]; auto.
          intros w y Hw. destruct (I5 w y Hw) as [Ho|Ho]; auto.
          destruct (Hq' _ Ho) as [Eo|]; auto. injection Eo as E1 E2. subst w f.
          destruct (a_ests st v) as [e0|] eqn:Ee; [|discriminate].
          destruct (I4 _ _ Ee) as (_ & y' & Y1 & Y2). rewrite Hw in Y1. injection Y1 as <-.
          right. f_equal. lia.
        * right. cbn [a_heap a_scores]. split; auto. lia.
      + destruct (Hedges v Hb) as (it & Ei & Dr). rewrite Ei. cbn [bind].
        assert (Ef : f = x + est v).
        { destruct (i_open _ _ I v x Hx) as [Ho|Ho].
          - specialize (Hmin _ Ho). cbn [fst] in Hmin. lia.
          - rewrite Ho in Es. lia. }
        set (st1 := mkA q (a_scores st) (insert (a_ests st) v f) (a_came st)).
        assert (J : Inv (eq v) st1).
        { destruct I as [I1 I2 I3 I4 I5 I6 I7 I8 I9].
          constructor; subst st1; cbn [a_heap a_scores a_ests a_came]; auto.
          - intros w g Hw. destruct (c_dec w v) as [->|Hne].
            + rewrite insert_same in Hw. injection Hw as <-. split; [auto|]. exists x. split; auto; lia.
            + rewrite insert_other in Hw by auto. auto.
          - intros w y Hw. destruct (c_dec w v) as [->|Hne].
            + right. rewrite insert_same. rewrite Hx in Hw. injection Hw as <-. congruence.
            + rewrite insert_other by auto. destruct (I5 w y Hw) as [Ho|Ho]; auto.
              destruct (Hq' _ Ho) as [Eo|]; auto. congruence.
          - intros w y Hw Hes Hc. rewrite insert_other in Hes by auto. apply I6; auto. }
        destruct (relax_all v x (out v) st1 J Hb Hx (fun _ h => h))
          as (st2 & E2 & I2 & X2 & _ & R2 & P2).
        fold st1. rewrite (for_each_fold _ _ _ _ _ _ _ _ _ Dr (Hdeg v Hb) E2). cbn [bind]. exists st2. split; auto. split.
        * destruct I2 as [K1 K2 K3 K4 K5 K6 K7 K8 K9]. constructor; auto.
          intros w y Hw Hes _. destruct (c_dec v w) as [<-|Hne]; [|eapply K6; eauto].
          rewrite X2 in Hw. injection Hw as <-. auto.
        * destruct P2 as [[S1 S2]|L2].
          -- right. rewrite S1, S2. subst st1. cbn [a_heap a_scores]. split; auto. lia.
          -- left. exact L2.
  Qed.

  (** ** What is still to be popped lies on every route to a goal *)

  Lemma route_open : forall st, Inv (fun _ => False) st ->
    forall a l k w, GRoute a l k w -> goal w = true -> forall y, a_scores st a = Some y ->
    exists n y' l2 k2, GRoute n l2 k2 w /\ a_scores st n = Some y' /\
      In (y' + est n, n) (a_heap st) /\ y' + k2 <= y + k.
  Proof.
    intros st I a l k w HR Hw. induction HR as [c|a e l k b He HR IH]; intros y Hy.
    - destruct (i_open _ _ I c y Hy) as [Ho|Ho].
      + exists c, y, [c], 0. split; [constructor|]. repeat split; auto. lia.
      + destruct (i_est _ _ I _ _ Ho) as [Hg _]. congruence.
    - destruct (i_open _ _ I a y Hy) as [Ho|Ho].
      + exists a, y, (a :: l), (cost e + k).
        split; [constructor; auto|]. repeat split; auto. lia.
      + destruct (i_closed _ _ I a y Hy Ho (fun h => h) e He) as (z & Z1 & Z2).
        destruct (IH Hw z Z1) as (n & y' & l2 & k2 & A1 & A2 & A3 & A4).
        exists n, y', l2, k2. repeat split; auto. lia.
  Qed.

  (** What a result says. *)
  Definition Post (r : option (Z * list C)) : Prop :=
    match r with
    | None => forall l k w, GRoute start l k w -> goal w = false
    | Some (x, l) =>
        exists v k, goal v = true /\ GRoute start l k v /\ k <= x /\
          (forall slack, (forall n, In n board -> goal n = true -> 0 <= est n) ->
           (forall n l' k' w, GRoute n l' k' w -> In n board -> goal w = true -> est n <= k' + slack) ->
           forall l' k' w, GRoute start l' k' w -> goal w = true -> x <= k' + slack)
    end.

  Lemma returns_inv : forall a b c st, (unscored st <= a)%nat -> (unscored st = a -> (total st <= b)%nat) ->
    (unscored st = a -> total st = b -> (length (a_heap st) <= c)%nat) ->
    Inv (fun _ => False) st -> exists r, Returns round st r /\ Post r.
  Proof.
    induction a as [a IHa] using (well_founded_induction Wf_nat.lt_wf).
    induction b as [b IHb] using (well_founded_induction Wf_nat.lt_wf).
    induction c as [c IHc] using (well_founded_induction Wf_nat.lt_wf).
    intros st Ha Hb Hc I.
    destruct (round_step st I) as [[E1 E2]|[(f & v & x & l & k & G)|(st' & E & I' & F)]].
    - exists None. split; [apply returns_now; auto|]. intros l k w HR.
      destruct (goal w) eqn:Ew; auto. exfalso.
      destruct (route_open st I _ _ _ _ HR Ew 0 (i_start _ _ I)) as (n & y' & l2 & k2 & _ & _ & A & _).
      rewrite E1 in A. destruct A.
    - destruct G as (G1 & G2 & G3 & G4 & G5 & G6 & G7 & G8). exists (Some (x, l)).
      split; [apply returns_now; auto|]. exists v, k. repeat split; auto.
      intros slack Hpos Hadm l' k' w HR Hw.
      destruct (route_open st I _ _ _ _ HR Hw 0 (i_start _ _ I)) as (n & y' & l2 & k2 & A1 & A2 & A3 & A4).
      specialize (G2 _ A3). cbn [fst] in G2. destruct (i_scored _ _ I _ _ G4) as [Hvb _]. specialize (Hpos v Hvb G3).
      destruct (i_scored _ _ I _ _ A2) as [Hnb _]. specialize (Hadm _ _ _ _ A1 Hnb Hw). lia.
    - assert (R : exists r, Returns round st' r /\ Post r).
      { destruct F as [F|[F1 F2]].
        - destruct F as [F|[F1 F2]].
          + apply (IHa (unscored st')) with (b := total st') (c := length (a_heap st')); auto; lia.
          + destruct (Nat.eq_dec (unscored st) a) as [E0|N0].
            * apply (IHb (total st')) with (c := length (a_heap st')); auto; lia.
            * apply (IHa (unscored st')) with (b := total st') (c := length (a_heap st')); auto; lia.
        - assert (U : unscored st' = unscored st) by (unfold unscored; rewrite F1; auto).
          assert (T : total st' = total st) by (unfold total; rewrite F1; auto).
          destruct (Nat.eq_dec (unscored st) a) as [E0|N0].
          + destruct (Nat.eq_dec (total st) b) as [E3|N3].
            * apply (IHc (length (a_heap st'))); auto; lia.
            * apply (IHb (total st')) with (c := length (a_heap st')); auto; lia.
          + apply (IHa (unscored st')) with (b := total st') (c := length (a_heap st')); auto; lia. }
      destruct R as (r & R & HPo). exists r. split; auto. eapply returns_later; eauto.
  Qed.

  Lemma returns_det : forall st r, Returns round st r -> forall r', Returns round st r' -> r = r'.
  Proof.
    induction 1 as [s r E|s s' r E HR IH]; intros r' HR'; inversion HR' as [? ? E'|? ? ? E' HR2]; subst.
    - congruence.
    - congruence.
    - congruence.
    - rewrite E in E'. injection E' as <-. auto.
  Qed.

  Lemma astar_ok : exists r, Returns round (astar_init eqb H est start) r /\ Post r.
  Proof. eapply returns_inv; eauto using inv_init. Qed.

  (** ** In terms of the code's edges *)

  Notation Rt := (Route edges edges_next targeto cost).

  Lemma edge_at_out : forall a e, In a board -> EdgeAt edges edges_next a e <-> In e (out a).
  Proof.
    intros a e Ha. destruct (Hedges a Ha) as (it & E1 & D1). split.
    - intros (it' & l & E2 & D2 & He). rewrite E1 in E2. injection E2 as <-.
      rewrite (Drains_det _ _ _ _ D1 D2). auto.
    - intros He. exists it, (out a). auto.
  Qed.

  Lemma route_iff : forall a p k b, In a board -> Rt a p k b <-> GRoute a p k b.
  Proof.
    intros a p k b Ha. split; intros HR; revert Ha.
    - induction HR as [c|a e t p k b He Ht HR IH]; intros Ha; [constructor|].
      apply (edge_at_out a e Ha) in He. rewrite (Htgt a e Ha He) in Ht. injection Ht as <-.
      constructor; auto. apply IH. eapply Hin; eauto.
    - induction HR as [c|a e p k b He HR IH]; intros Ha; [constructor|].
      eapply route_step; [apply edge_at_out; auto|eapply Htgt; eauto|]. apply IH. eapply Hin; eauto.
  Qed.

  (** Any two nodes are joined if there is always a step that comes closer. *)
  Lemma route_closer : forall (b : C) (dist : C -> Z),
    (forall a, In a board -> 0 <= dist a /\ (dist a = 0 -> a = b)) ->
    (forall a, In a board -> 0 < dist a -> exists e, In e (out a) /\ dist (target e) <= dist a - 1) ->
    forall a, In a board -> exists p k, GRoute a p k b /\
      ((forall a e, In a board -> In e (out a) -> cost e = 1) -> k <= dist a).
  Proof using Hin.
    clear - Hin.
    intros b dist H0 H1 a Ha.
    remember (Z.to_nat (dist a)) as n eqn:En. revert a Ha En.
    induction n as [n IH] using (well_founded_induction Wf_nat.lt_wf). intros a Ha En.
    destruct (H0 a Ha) as [P1 P2]. destruct (Z.eq_dec (dist a) 0) as [Z0|NZ].
    - rewrite (P2 Z0) in *. exists [b], 0. split; [constructor|lia].
    - destruct (H1 a Ha ltac:(lia)) as (e & He & Hd).
      pose proof (Hin a e Ha He) as Ht. destruct (H0 _ Ht) as [Q1 _].
      destruct (IH (Z.to_nat (dist (target e))) ltac:(lia) (target e) Ht eq_refl) as (p & k & HR & Hk).
      exists (a :: p), (cost e + k). split; [constructor; auto|].
      intros HU. specialize (Hk HU). rewrite (HU a e Ha He). lia.
  Qed.

  Lemma route_far : forall (dist : C -> Z),
    (forall a e, In a board -> In e (out a) -> dist a <= dist (target e) + 1 /\ 1 <= cost e) ->
    forall a p k b, GRoute a p k b -> In a board -> dist a <= dist b + k.
  Proof using Hin.
    clear - Hin.
    intros dist H0 a p k b HR. induction HR as [c|a e p k b He HR IH]; intros Ha; [lia|].
    destruct (H0 a e Ha He). specialize (IH (Hin a e Ha He)). lia.
  Qed.

  (** On a board where every node can be reached. *)
  Context (Hconn : forall c, In c board -> exists p k, GRoute start p k c).

  Theorem astar_finds : exists r, Returns round (astar_init eqb H est start) r /\
    match r with
    | None => forall c, In c board -> goal c = false
    | Some (x, p) => exists c k, goal c = true /\ Rt start p k c /\ k <= x
    end.
  Proof.
    destruct astar_ok as (r & HR & HP). exists r. split; auto. destruct r as [[x p]|].
    - destruct HP as (v & k & P1 & P2 & P3 & _). exists v, k. split; auto. split; auto.
      apply route_iff; auto.
    - intros c Hc. destruct (Hconn c Hc) as (p & k & P). eapply HP; eauto.
  Qed.

  Theorem astar_cheapest :
    (forall n, In n board -> goal n = true -> 0 <= est n) ->
    (forall n p k c, In n board -> goal c = true -> Rt n p k c -> est n <= k) ->
    exists r, Returns round (astar_init eqb H est start) r /\
    match r with
    | None => forall c, In c board -> goal c = false
    | Some (x, p) => Cheapest edges edges_next targeto cost goal start p x
    end.
  Proof.
    intros Hpos Hadm. destruct astar_ok as (r & HR & HP). exists r. split; auto.
    destruct r as [[x p]|].
    - destruct HP as (v & k & P1 & P2 & P3 & P4).
      assert (Hmin : forall l' k' w, GRoute start l' k' w -> goal w = true -> x <= k').
      { intros l' k' w HR' Hw. rewrite <- (Z.add_0_r k'). apply P4 with (l' := l') (w := w); auto.
        intros n l2 k2 w2 HR2 Hn Hw2. rewrite Z.add_0_r. apply (Hadm n l2 k2 w2); auto.
        apply route_iff; auto. }
      assert (k = x) as -> by (specialize (Hmin _ _ _ P2 P1); lia).
      split.
      + exists v. split; auto. apply route_iff; auto.
      + intros c p' k' Hc HR'. apply (Hmin p' k' c); auto. apply route_iff; auto.
    - intros c Hc. destruct (Hconn c Hc) as (p & k & P). eapply HP; eauto.
  Qed.

  (** With estimates that exceed the cost of a route to a goal by no more than [slack]. *)
  Theorem astar_close : forall slack,
    (forall n, In n board -> goal n = true -> 0 <= est n) ->
    (forall n p k c, In n board -> goal c = true -> Rt n p k c -> est n <= k + slack) ->
    exists r, Returns round (astar_init eqb H est start) r /\
    match r with
    | None => forall c, In c board -> goal c = false
    | Some (x, p) => (exists c k, goal c = true /\ Rt start p k c /\ k <= x) /\
        forall c p' k', goal c = true -> Rt start p' k' c -> x <= k' + slack
    end.
  Proof.
    intros slack Hpos Hadm. destruct astar_ok as (r & HR & HP). exists r. split; auto.
    destruct r as [[x p]|].
    - destruct HP as (v & k & P1 & P2 & P3 & P4). split.
      + exists v, k. split; auto. split; auto. apply route_iff; auto.
      + intros c p' k' Hc HR'. apply P4 with (l' := p') (w := c); auto; [|apply route_iff; auto].
        intros n l2 k2 w2 HR2 Hn Hw2. apply (Hadm n l2 k2 w2); auto. apply route_iff; auto.
    - intros c Hc. destruct (Hconn c Hc) as (p & k & P). eapply HP; eauto.
  Qed.
End Generic.

(** A computed run. *)
Lemma loop_returns : forall S R (body : S -> outcome (S + R)) s r,
  loop body s = Ok r -> Returns body s r.
Proof.
  intros S R body s r. unfold loop. rewrite iter_loop_nat. generalize (Pos.to_nat (2 ^ 72)) as n.
  intros n. revert s. induction n as [|n IH]; intros s; cbn [nat_loop]; [discriminate|].
  destruct (body s) as [[s'|r']|f] eqn:Eb; try discriminate.
  - intros E. eapply returns_later; eauto.
  - intros E. injection E as ->. apply returns_now; auto.
Qed.
