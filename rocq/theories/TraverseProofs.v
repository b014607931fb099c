(** * TraverseProofs: breadth-first and depth-first search reach every node once. *)

From Verif Require Import Machine Traverse Basics.
From Coq Require Import ZifyBool ZifyNat Sorted.

Lemma for_each_fold : forall It X S (next : It -> outcome (option X * It)) it l
  (body : S -> X -> outcome S) s s', Drains next it l -> Z.of_nat (length l) + 1 < 2 ^ 72 ->
  fold_outcome body l s = Ok s' -> for_each next it body s = Ok s'.
Proof.
  intros It X S next it l body s s' (it1 & it2 & HC & HN & _) Hlen HF. unfold for_each.
  eapply loop_rounds with (n := length l); [|lia]. clear Hlen.
  revert s s' HF. induction HC; intros s s' HF.
  - cbn [fold_outcome] in HF. injection HF as <-. apply R_done.
    cbn [fst snd]. rewrite HN. reflexivity.
  - cbn [fold_outcome] in HF. destruct (body s x) as [s1|] eqn:Eb; [|discriminate].
    cbn [bind] in HF. eapply R_more; [|apply (IHHC HN s1 s' HF)].
    cbn [fst snd]. rewrite H. cbn [bind fst snd]. rewrite Eb. reflexivity.
Qed.

Lemma NoDup_disjoint : forall X (l1 l2 : list X), NoDup (l1 ++ l2) ->
  forall x, In x l1 -> In x l2 -> False.
Proof.
  intros X. induction l1 as [|a l1 IH]; intros l2 H x H1 H2; [destruct H1|].
  cbn [app] in H. inversion H as [|? ? Hn Hd]; subst. destruct H1 as [->|H1].
  - apply Hn. apply in_or_app. auto.
  - eapply IH; eauto.
Qed.

Lemma sorted_split : forall X (R : X -> X -> Prop) l1 a l2 b l3,
  StronglySorted R (l1 ++ a :: l2 ++ b :: l3) -> R a b.
Proof.
  intros X R. induction l1 as [|x l1 IH]; intros a l2 b l3 H; cbn [app] in H;
    inversion H as [|? ? H1 H2]; subst.
  - rewrite Forall_forall in H2. apply H2. apply in_or_app. right. left; auto.
  - eapply IH; eauto.
Qed.

Lemma list_rev_case : forall X (l : list X), l = [] \/ exists l' x, l = l' ++ [x].
Proof.
  intros X l. induction l as [|x l' _] using rev_ind; [auto|]. right. eauto.
Qed.

Section Generic.
  Context {C It VM : Type} (nb : C -> It) (nb_next : C -> It -> outcome (option C * It))
    (visit : VM -> C -> outcome (bool * VM)) (visited : VM -> C -> outcome bool)
    (dec : forall a b : C, {a = b} + {a <> b})
    (board : list C) (nbs : C -> list C) (VR : VM -> list C -> Prop)
    (Hnb : forall c, In c board -> Drains (nb_next c) (nb c) (nbs c))
    (Hsize : forall c, In c board -> Z.of_nat (length (nbs c)) + 1 < 2 ^ 72)
    (Hin : forall c c', In c board -> In c' (nbs c) -> In c' board)
    (Hvisit : forall vm M c, VR vm M -> In c board ->
       exists b vm', visit vm c = Ok (b, vm') /\ (b = true <-> ~ In c M) /\ VR vm' (c :: M))
    (Hvisited : forall vm M c, VR vm M -> In c board ->
       exists b, visited vm c = Ok b /\ (b = true <-> In c M))
    (VRext : forall vm M M', VR vm M -> (forall c, In c M <-> In c M') -> VR vm M').

  Lemma filled : forall L : list C, NoDup L -> incl L board -> (length L <= length board)%nat.
  Proof. intros L H1 H2. apply NoDup_incl_length; auto. Qed.

  (** ** Breadth-first search *)

  Definition push (st : list C * VM) (succ : C) : outcome (list C * VM) :=
    let! (new, vm) := visit (snd st) succ in
    Ok (if new then fst st ++ [succ] else fst st, vm).

  Lemma push_all : forall ns L q vm, VR vm (L ++ q) -> NoDup (L ++ q) -> incl ns board ->
    exists q2 vm', fold_outcome push ns (q, vm) = Ok (q ++ q2, vm') /\ VR vm' (L ++ q ++ q2) /\
      NoDup (L ++ q ++ q2) /\ incl q2 ns /\ incl ns (L ++ q ++ q2).
  Proof using Hvisit VRext dec.
    induction ns as [|n ns IH]; intros L q vm HV HN HI.
    - exists [], vm. rewrite app_nil_r. repeat split; auto; intros x [].
    - destruct (Hvisit vm _ n HV (HI n (or_introl eq_refl))) as (b & vm1 & E1 & Hb & HV1).
      cbn [fold_outcome]. unfold push at 1. cbn [fst snd]. rewrite E1. cbn [bind].
      assert (HI' : incl ns board) by (intros x Hx; apply HI; right; auto).
      destruct b.
      + assert (Hn : ~ In n (L ++ q)) by (apply Hb; auto).
        destruct (IH L (q ++ [n]) vm1) as (q2 & vm' & F1 & F2 & F3 & F4 & F5); auto.
        * eapply VRext; [exact HV1|]. intros c. rewrite !in_app_iff. cbn [In].
          rewrite !in_app_iff. cbn [In]. tauto.
        * rewrite app_assoc. apply NoDup_Add with (a := n) (l := L ++ q).
          -- rewrite <- (app_nil_r (L ++ q)) at 1. apply Add_app.
          -- auto.
        * exists (n :: q2), vm'. rewrite <- app_assoc in F1, F2, F3, F5. cbn [app] in F1, F2, F3, F5.
          repeat split; auto.
          -- intros x [->|Hx]; [left; auto|right; auto].
          -- intros x [->|Hx]; [|auto]. rewrite !in_app_iff. cbn [In]. auto.
      + assert (Hn : In n (L ++ q)).
        { destruct (in_dec dec n (L ++ q)) as [H|H]; auto. apply Hb in H. discriminate. }
        destruct (IH L q vm1) as (q2 & vm' & F1 & F2 & F3 & F4 & F5); auto.
        * eapply VRext; [exact HV1|]. intros c. cbn [In]. split; [intros [->|H]; auto|auto].
        * exists q2, vm'. repeat split; auto.
          -- intros x Hx. right. auto.
          -- intros x [<-|Hx]; auto. rewrite in_app_iff in *. rewrite in_app_iff. tauto.
  Qed.

  Lemma sorted_app : forall (R : C -> C -> Prop) l1 l2,
    StronglySorted R (l1 ++ l2) <->
    StronglySorted R l1 /\ StronglySorted R l2 /\ forall x y, In x l1 -> In y l2 -> R x y.
  Proof.
    intros R. induction l1 as [|a l1 IH]; intros l2; cbn [app].
    - split; [intros H; repeat split; auto; [constructor|intros x y []]|intros (_ & H & _); auto].
    - split.
      + intros H. inversion H as [|? ? H1 H2]; subst. apply IH in H1. destruct H1 as (A1 & A2 & A3).
        rewrite Forall_forall in H2. repeat split; auto.
        * constructor; auto. apply Forall_forall. intros x Hx. apply H2. apply in_or_app. auto.
        * intros x y [->|Hx] Hy; auto. apply H2. apply in_or_app. auto.
      + intros (H1 & H2 & H3). inversion H1 as [|? ? H4 H5]; subst. constructor.
        * apply IH. repeat split; auto. intros x y Hx Hy. apply H3; auto. right; auto.
        * apply Forall_forall. intros x Hx. apply in_app_or in Hx. rewrite Forall_forall in H5.
          destruct Hx as [Hx|Hx]; auto. apply H3; auto. left; auto.
  Qed.

  Section Levels.
    Context (start : C) (Hstart : In start board) (f : C -> Z)
      (f_start : f start = 0) (f_pos : forall c, 0 <= f c)
      (f_zero : forall c, In c board -> f c = 0 -> c = start)
      (f_step : forall c c', In c board -> In c' (nbs c) -> f c' <= f c + 1)
      (f_desc : forall c, In c board -> 0 < f c ->
         exists p, In p board /\ In c (nbs p) /\ f p <= f c - 1).

    Definition le_f (a b : C) : Prop := f a <= f b.

    Record BInv (L q : list C) (vm : VM) : Prop := {
      bi_vm : VR vm (L ++ q);
      bi_nodup : NoDup (L ++ q);
      bi_board : incl (L ++ q) board;
      bi_closed : forall c c', In c L -> In c' (nbs c) -> In c' (L ++ q);
      bi_sorted : StronglySorted le_f (L ++ q);
      bi_near : forall n q' x, q = n :: q' -> In x q -> f x <= f n + 1;
      bi_below : forall n q' c, q = n :: q' -> In c board -> f c <= f n -> In c (L ++ q);
      bi_start : In start (L ++ q) }.

    Lemma reach_all : forall L, In start L -> incl L board ->
      (forall c c', In c L -> In c' (nbs c) -> In c' L) ->
      forall c, In c board -> In c L.
    Proof using f_zero f_pos f_desc.
      clear - f_zero f_pos f_desc. intros L HS HL Hcl c. remember (Z.to_nat (f c)) as k eqn:Hk. revert c Hk.
      induction k as [k IH] using lt_wf_ind. intros c Hk Hc. pose proof (f_pos c) as Hp.
      destruct (Z.eq_dec (f c) 0) as [H0|H0].
      - rewrite (f_zero c Hc H0). auto.
      - destruct (f_desc c Hc ltac:(lia)) as (p & Hpb & Hn & Hf). pose proof (f_pos p).
        apply (Hcl p c); auto. eapply IH; [|reflexivity|auto]. lia.
    Qed.

    Lemma bfs_drains : forall k L q vm, BInv L q vm -> (length board - length L < k)%nat ->
      exists l, Drains (bfs_next nb nb_next visit) (q, vm) l /\ NoDup (L ++ l) /\
        (forall c, In c (L ++ l) <-> In c board) /\ StronglySorted le_f (L ++ l) /\
        (forall n q', q = n :: q' -> exists l', l = n :: l').
    Proof using Hnb Hsize Hin Hvisit VRext dec f_zero f_pos f_desc f_step.
      clear visited Hvisited Hstart f_start. induction k; intros L q vm HI Hk; [lia|]. destruct q as [|n q].
      - exists []. rewrite app_nil_r. destruct HI as [H1 H2 H3 H4 H5 H6 H7 H8].
        rewrite app_nil_r in *. split; [|split; [auto|split; [|split; [auto|intros; discriminate]]]].
        + exists ([], vm), ([], vm). repeat split; constructor.
        + intros c. split; [apply H3|]. apply reach_all; auto.
      - destruct HI as [H1 H2 H3 H4 H5 H6 H7 H8].
        assert (Hn : In n board) by (apply H3; rewrite in_app_iff; cbn [In]; auto).
        assert (HA : L ++ n :: q = (L ++ [n]) ++ q) by (rewrite <- app_assoc; reflexivity).
        destruct (push_all (nbs n) (L ++ [n]) q vm) as (q2 & vm' & F1 & F2 & F3 & F4 & F5).
        + rewrite <- HA. auto.
        + rewrite <- HA. auto.
        + intros x Hx. eapply Hin; eauto.
        + assert (Hnew : forall x, In x q2 -> f x = f n + 1).
          { intros x Hx. pose proof (f_step n x Hn (F4 x Hx)) as Hu.
            destruct (Z_le_gt_dec (f x) (f n)) as [Hle|]; [|lia]. exfalso.
            assert (Hxi : In x ((L ++ [n]) ++ q)).
            { rewrite <- HA. eapply H7; eauto. }
            rewrite app_assoc in F3. exact (NoDup_disjoint _ _ _ F3 x Hxi Hx). }
          assert (Hlast : forall x, In x (L ++ n :: q) -> f x <= f n + 1).
          { intros x Hx. apply in_app_or in Hx. destruct Hx as [Hx|Hx].
            - apply sorted_app in H5. destruct H5 as (_ & _ & H5).
              specialize (H5 x n Hx (or_introl eq_refl)). unfold le_f in H5. lia.
            - eapply H6; eauto. }
          assert (HS' : StronglySorted le_f (L ++ n :: q ++ q2)).
          { change (n :: q ++ q2) with ((n :: q) ++ q2). rewrite app_assoc. apply sorted_app.
            split; auto. split.
            - clear - Hnew. induction q2 as [|y q2 IH]; constructor.
              + apply IH. intros x Hx. apply Hnew. right; auto.
              + apply Forall_forall. intros x Hx. unfold le_f.
                rewrite (Hnew y) by (left; auto). rewrite (Hnew x) by (right; auto). lia.
            - intros x y Hx Hy. unfold le_f. rewrite (Hnew y Hy). auto. }
          assert (HB2 : incl ((L ++ [n]) ++ q ++ q2) board).
          { intros x Hx. rewrite app_assoc in Hx. apply in_app_or in Hx. destruct Hx as [Hx|Hx].
            - apply H3. rewrite HA. auto.
            - eapply Hin; eauto. }
          assert (HI' : BInv (L ++ [n]) (q ++ q2) vm').
          { constructor; auto.
            - intros c c' Hc Hc'. apply in_app_or in Hc. destruct Hc as [Hc|[<-|[]]].
              + rewrite app_assoc. apply in_or_app. left. rewrite <- HA. eapply H4; eauto.
              + apply F5; auto.
            - rewrite <- app_assoc. exact HS'.
            - intros h q' x Eq Hx.
              assert (Hh : f n <= f h).
              { apply sorted_app in HS'. destruct HS' as (_ & HS' & _).
                inversion HS' as [|? ? _ Hall]; subst. rewrite Forall_forall in Hall.
                apply Hall. rewrite Eq. left; auto. }
              apply in_app_or in Hx. destruct Hx as [Hx|Hx].
              + enough (f x <= f n + 1) by lia. apply Hlast. rewrite in_app_iff. cbn [In]. auto.
              + rewrite (Hnew x Hx). lia.
            - intros h q' c Eq Hc Hf.
              assert (Hh : f n <= f h).
              { apply sorted_app in HS'. destruct HS' as (_ & HS' & _).
                inversion HS' as [|? ? _ Hall]; subst. rewrite Forall_forall in Hall.
                apply Hall. rewrite Eq. left; auto. }
              destruct (Z_le_gt_dec (f c) (f n)) as [Hle|Hgt].
              + rewrite app_assoc. apply in_or_app. left. rewrite <- HA. eapply H7; eauto.
              + assert (Hhq : In h (q ++ q2)) by (rewrite Eq; left; auto).
                assert (Hh2 : f h <= f n + 1).
                { apply in_app_or in Hhq. destruct Hhq as [Hx|Hx].
                  - apply Hlast. rewrite in_app_iff. cbn [In]. auto.
                  - rewrite (Hnew h Hx). lia. }
                pose proof (f_pos n).
                destruct (f_desc c Hc ltac:(lia)) as (p & Hpb & Hpn & Hpf).
                assert (Hpi : In p (L ++ n :: q)) by (eapply H7; eauto; lia).
                rewrite HA in Hpi. apply in_app_or in Hpi. destruct Hpi as [Hpi|Hpi].
                * apply in_app_or in Hpi. destruct Hpi as [Hpi|[<-|[]]].
                  -- rewrite app_assoc. apply in_or_app. left. rewrite <- HA. eapply H4; eauto.
                  -- apply F5; auto.
                * exfalso. apply sorted_app in HS'. destruct HS' as (_ & HS' & _).
                  inversion HS' as [|? ? HS2 _]; subst. rewrite Eq in HS2.
                  inversion HS2 as [|? ? _ Hall]; subst. rewrite Forall_forall in Hall.
                  assert (Hp2 : In p (h :: q')) by (rewrite <- Eq; apply in_or_app; auto).
                  destruct Hp2 as [<-|Hp2]; [lia|]. apply Hall in Hp2. unfold le_f in Hp2. lia.
            - rewrite app_assoc. apply in_or_app. left. rewrite <- HA. auto. }
          destruct (IHk _ _ _ HI') as (l & D1 & D2 & D3 & D4 & _).
          { rewrite app_length. cbn [length].
            assert (Hle : (length (L ++ n :: q) <= length board)%nat) by (apply filled; auto).
            rewrite app_length in Hle. cbn [length] in Hle. lia. }
          exists (n :: l).
          assert (HA2 : L ++ n :: l = (L ++ [n]) ++ l) by (rewrite <- app_assoc; reflexivity).
          rewrite HA2. split; [|repeat split; auto; try apply D3; eauto].
          * eapply Drains_cons; [|exact D1]. unfold bfs_next. cbn [fst snd].
            rewrite (for_each_fold _ _ _ _ _ (nbs n) push (q, vm) (q ++ q2, vm')); auto.
          * intros n0 q' E. injection E as <- <-. eauto.
    Qed.

    Lemma bfs_all : forall fresh, VR fresh [] -> exists it l,
      bfs_new visit fresh start = Ok it /\ Drains (bfs_next nb nb_next visit) it l /\
      NoDup l /\ (forall c, In c l <-> In c board) /\ StronglySorted le_f l /\
      exists l', l = start :: l'.
    Proof using Hnb Hsize Hin Hvisit VRext dec Hstart f_start f_zero f_pos f_desc f_step.
      clear visited Hvisited. intros fresh HV.
      destruct (Hvisit fresh [] start HV Hstart) as (b & vm & E & _ & HV1).
      exists ([start], vm).
      destruct (bfs_drains (S (length board)) [] [start] vm) as (l & D1 & D2 & D3 & D4 & D5).
      - constructor; cbn [app]; auto.
        + constructor; [intros []|constructor].
        + intros x [<-|[]]; auto.
        + intros c c' [].
        + repeat constructor.
        + intros n q' x Eq [<-|[]]. injection Eq as <- _. lia.
        + intros n q' c Eq Hc Hf. injection Eq as <- _. left. symmetry. apply f_zero; auto.
          pose proof (f_pos c). lia.
        + left; auto.
      - lia.
      - exists l. unfold bfs_new. rewrite E. cbn [bind app] in *. repeat split; auto; try apply D3.
        eapply D5; reflexivity.
    Qed.

    (** ** Depth-first search *)

    Definition dfs_push (vm : VM) (stack : list C) (succ : C) : outcome (list C) :=
      let! v := visited vm succ in Ok (if v then stack else succ :: stack).

    Lemma dfs_push_all : forall ns L stack vm, VR vm L -> incl ns board ->
      exists st', fold_outcome (dfs_push vm) ns stack = Ok st' /\ incl stack st' /\
        (forall x, In x st' -> In x stack \/ In x ns) /\
        (forall x, In x ns -> In x L \/ In x st').
    Proof using Hvisited.
      clear - Hvisited. induction ns as [|n ns IH]; intros L stack vm HV HI.
      - exists stack. repeat split; auto. intros x Hx; auto. intros x [].
      - destruct (Hvisited vm L n HV (HI n (or_introl eq_refl))) as (b & E & Hb).
        cbn [fold_outcome]. unfold dfs_push at 1. rewrite E. cbn [bind].
        destruct (IH L (if b then stack else n :: stack) vm HV) as (st' & F1 & F2 & F3 & F4).
        { intros x Hx. apply HI. right; auto. }
        exists st'. split; auto. split; [|split].
        + intros x Hx. apply F2. destruct b; auto. right; auto.
        + intros x Hx. destruct (F3 x Hx) as [H|H]; cbn [In]; auto. destruct b; auto.
          destruct H as [<-|H]; auto.
        + intros x [<-|Hx]; auto. destruct b.
          * left. apply Hb. auto.
          * right. apply F2. left; auto.
    Qed.

    Record DInv (L st : list C) (vm : VM) : Prop := {
      di_vm : VR vm L;
      di_nodup : NoDup L;
      di_board : incl L board;
      di_stack : incl st board;
      di_closed : forall c c', In c L -> In c' (nbs c) -> In c' L \/ In c' st;
      di_from : (L = [] /\ st = [start]) \/
        (L <> [] /\ forall c, In c st -> exists p, In p L /\ In c (nbs p));
      di_start : In start L \/ In start st }.

    (** Each node after the first is a neighbour of an earlier one. *)
    Definition grown (l : list C) : Prop :=
      forall l1 c l2, l = l1 ++ c :: l2 ->
        (l1 = [] /\ c = start) \/ exists p, In p l1 /\ In c (nbs p).

    Lemma dfs_pop_ok : forall st L vm, DInv L st vm ->
      (exists vm', dfs_pop nb nb_next visit visited st vm = Ok (None, ([], vm')) /\
         DInv L [] vm') \/
      (exists n st' vm', dfs_pop nb nb_next visit visited st vm = Ok (Some n, (st', vm')) /\
         DInv (L ++ [n]) st' vm' /\ ((L = [] /\ n = start) \/ exists p, In p L /\ In n (nbs p))).
    Proof using Hnb Hsize Hin Hvisit Hvisited VRext dec.
      clear Hstart f_start f_pos f_zero f_step f_desc f.
      induction st as [|n st IH]; intros L vm HI; pose proof HI as [H1 H2 H3 H4 H5 H6 H7].
      - left. exists vm. split; auto.
      - cbn [dfs_pop]. assert (Hn : In n board) by (apply H4; left; auto).
        destruct (Hvisit vm L n H1 Hn) as (b & vm1 & E & Hb & HV1). rewrite E. cbn [bind].
        destruct b.
        + right. assert (HnL : ~ In n L) by (apply Hb; auto).
          destruct (dfs_push_all (nbs n) (n :: L) st vm1 HV1) as (st' & F1 & F2 & F3 & F4).
          { intros x Hx. eapply Hin; eauto. }
          rewrite (for_each_fold _ _ _ _ _ (nbs n) (dfs_push vm1) st st'); auto.
          cbn [bind]. exists n, st', vm1. split; auto. split.
          2:{ destruct H6 as [[-> E0]|[_ H6]]; [left; injection E0 as -> _; auto|].
              right. apply H6. left; auto. }
          assert (HL : forall x, In x (L ++ [n]) <-> In x (n :: L)).
          { intros x. rewrite in_app_iff. cbn [In]. tauto. }
          constructor.
          * eapply VRext; [exact HV1|]. intros x. rewrite HL. tauto.
          * apply NoDup_Add with (a := n) (l := L); [|auto].
            rewrite <- (app_nil_r L) at 1. apply Add_app.
          * intros x Hx. apply HL in Hx. destruct Hx as [<-|Hx]; auto.
          * intros x Hx. destruct (F3 x Hx) as [H|H]; [apply H4; right; auto|eapply Hin; eauto].
          * intros c c' Hc Hc'. rewrite HL. apply HL in Hc. destruct Hc as [<-|Hc].
            -- destruct (F4 c' Hc') as [H|H]; auto.
            -- destruct (H5 c c' Hc Hc') as [H|[<-|H]]; [left; right; auto|left; left; auto|].
               right. apply F2; auto.
          * right. split; [destruct L; discriminate|]. intros c Hc.
            destruct (F3 c Hc) as [H|H].
            -- destruct H6 as [[_ E0]|[_ H6]]; [injection E0 as _ ->; destruct H|].
               destruct (H6 c (or_intror H)) as (p & Hp1 & Hp2). exists p. split; auto.
               apply HL. right; auto.
            -- exists n. split; auto. apply HL. left; auto.
          * rewrite HL. cbn [In]. destruct H7 as [H|[<-|H]]; auto.
        + assert (HnL : In n L).
          { destruct (in_dec dec n L) as [H|H]; auto. apply Hb in H. discriminate. }
          destruct H6 as [[-> _]|[H6a H6b]]; [destruct HnL|].
          apply IH. constructor; auto.
          * eapply VRext; [exact HV1|]. intros c. cbn [In]. split; [intros [->|H]; auto|auto].
          * intros x Hx. apply H4. right; auto.
          * intros c c' Hc Hc'. destruct (H5 c c' Hc Hc') as [H|[<-|H]]; auto.
          * right. split; auto. intros c Hc. apply H6b. right; auto.
          * destruct H7 as [H|[<-|H]]; auto.
    Qed.

    Lemma dfs_drains : forall k L st vm, DInv L st vm -> (length board - length L < k)%nat ->
      grown L ->
      exists l, Drains (dfs_next nb nb_next visit visited) (st, vm) l /\ NoDup (L ++ l) /\
        (forall c, In c (L ++ l) <-> In c board) /\ grown (L ++ l).
    Proof.
      induction k; intros L st vm HI Hk HG; [lia|].
      destruct (dfs_pop_ok st L vm HI) as [(vm' & E & HI')|(n & st' & vm' & E & HI' & Hn)].
      - exists []. rewrite app_nil_r. destruct HI' as [H1 H2 H3 H4 H5 H6 H7].
        split; [|split; [auto|split; [|auto]]].
        + exists (st, vm), ([], vm'). split; [constructor|]. split; [exact E|reflexivity].
        + intros c. split; [apply H3|]. destruct H7 as [H7|[]]. apply reach_all; auto.
          intros x y Hx Hy. destruct (H5 x y Hx Hy) as [H|[]]; auto.
      - destruct (IHk _ _ _ HI') as (l & D1 & D2 & D3 & D4).
        + rewrite app_length. cbn [length]. destruct HI' as [H1 H2 H3 H4 H5 H6 H7].
          pose proof (filled (L ++ [n]) H2 H3) as Hle. rewrite app_length in Hle.
          cbn [length] in Hle. lia.
        + intros l1 c l2 Eq.
          destruct (list_rev_case _ l2) as [->|(l3 & x & ->)].
          * apply app_inj_tail in Eq. destruct Eq as [<- <-]. exact Hn.
          * rewrite app_comm_cons, app_assoc in Eq. apply app_inj_tail in Eq.
            destruct Eq as [Eq _]. eapply HG; eauto.
        + exists (n :: l).
          assert (HA2 : L ++ n :: l = (L ++ [n]) ++ l) by (rewrite <- app_assoc; reflexivity).
          rewrite HA2. split; [|repeat split; auto; try apply D3].
          eapply Drains_cons; [|exact D1]. exact E.
    Qed.

    Lemma dfs_all : forall fresh, VR fresh [] -> exists l,
      Drains (dfs_next nb nb_next visit visited) (dfs_new fresh start) l /\
      NoDup l /\ (forall c, In c l <-> In c board) /\ grown l.
    Proof.
      intros fresh HV. destruct (dfs_drains (S (length board)) [] [start] fresh) as (l & D).
      - constructor.
        + exact HV.
        + constructor.
        + intros x [].
        + intros x [<-|[]]; auto.
        + intros c c' [].
        + auto.
        + right. left; auto.
      - lia.
      - intros l1 c l2 Eq. destruct l1; discriminate.
      - exists l. exact D.
    Qed.
  End Levels.
End Generic.
