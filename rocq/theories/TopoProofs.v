(** * TopoProofs: what [toposort] gives on a graph whose [neighbors_directed] ignores its
    direction. *)

From Verif Require Import Machine Traverse Clients Basics TraverseProofs Spec11 AnySearch
  ClientsProofs PostAny SccProofs Topo.
From Coq Require Import ZifyBool ZifyNat Permutation.

Lemma consumed_det : forall It X (next : It -> outcome (option X * It)) it l1 a,
  Consumed next it l1 a -> forall a', next a = Ok (None, a') ->
  forall l2 b b', Consumed next it l2 b -> next b = Ok (None, b') -> l1 = l2 /\ a = b.
Proof.
  intros It X next it l1 a. induction 1 as [it|it x it1 l it2 H HC IH]; intros a' HN l2 b b' H2 HN2.
  - inversion H2 as [|? ? ? ? ? Hx]; subst; auto. rewrite HN in Hx. discriminate.
  - inversion H2 as [|? x2 it3 l3 ? Hx HC2]; subst.
    + rewrite HN2 in H. discriminate.
    + rewrite H in Hx. injection Hx as <- <-. destruct (IH _ HN _ _ _ HC2 HN2) as [-> ->]. auto.
Qed.

Section Any.
  Context {C It Ids VM : Type} (ids : Ids) (ids_next : Ids -> outcome (option C * Ids))
    (nb : C -> It) (nb_next : C -> It -> outcome (option C * It))
    (visit : VM -> C -> outcome (bool * VM)) (visited : VM -> C -> outcome bool)
    (fresh : VM) (reset : VM -> VM)
    (dec : forall a b : C, {a = b} + {a <> b})
    (board : list C) (raw : C -> list C) (VR : VM -> list C -> Prop)
    (Hids : Drains ids_next ids board) (Hnd : NoDup board)
    (Hnb : forall c, In c board -> Drains (nb_next c) (nb c) (raw c))
    (Hfew : forall c, In c board -> (length (raw c) <= 8)%nat)
    (Hoff : forall c x, In c board -> In x (raw c) -> ~ In x board -> forall vm,
       visit vm x = Ok (false, vm) /\ visited vm x = Ok false)
    (Hvisit : forall vm M c, VR vm M -> In c board ->
       exists b vm', visit vm c = Ok (b, vm') /\ (b = true <-> ~ In c M) /\ VR vm' (c :: M))
    (Hvisited : forall vm M c, VR vm M -> In c board ->
       exists b, visited vm c = Ok b /\ (b = true <-> In c M))
    (VRext : forall vm M M', VR vm M -> (forall c, In c M <-> In c M') -> VR vm M')
    (Hfresh : VR fresh []) (Hreset : forall vm M, VR vm M -> VR (reset vm) [])
    (Hlen : Z.of_nat (length board) <= 2 ^ 63).

  Notation leads a c := (exists n, Reached nb nb_next board a n c).
  Notation closed M := (forall c x, In c M -> In x (raw c) -> In x board -> In x M).
  Notation dround := (dpo_round nb nb_next visit visited).
  Notation tround := (topo_round nb nb_next visit visited dec).
  Notation inv := (Inv nb nb_next board raw VR).
  Notation sz := (size board).
  (** No node of [M] is its own neighbour. *)
  Notation plain M := (forall c, In c M -> ~ In c (raw c)).

  Lemma vr_same : forall vm M M', VR vm M -> VR vm M' -> incl M board -> incl M M'.
  Proof using Hvisited.
    clear - Hvisited. intros vm M M' H1 H2 HI c Hc.
    destruct (Hvisited vm M c H1 (HI c Hc)) as (b & E1 & B1).
    destruct (Hvisited vm M' c H2 (HI c Hc)) as (b' & E2 & B2).
    rewrite E1 in E2. injection E2 as <-. apply B2, B1, Hc.
  Qed.

  (** The first phase pushes neighbours as [DfsPostOrder] does, until it meets the node. *)
  Lemma push_plain : forall vm nx ns, ~ In nx ns -> forall st st',
    fold_outcome (fun stack succ =>
        let! v := visited vm succ in Ok (if v then stack else succ :: stack)) ns st = Ok st' ->
    fold_return (fun stack succ => if dec succ nx then Ok (inr nx) else
        let! v := visited vm succ in Ok (inl (if v then stack else succ :: stack))) ns st
    = Ok (inl st').
  Proof.
    intros vm nx. induction ns as [|x ns IH]; intros Hn st st' H; cbn [fold_outcome fold_return] in *.
    - injection H as <-. reflexivity.
    - destruct (dec x nx) as [->|_]; [exfalso; apply Hn; left; auto|].
      destruct (visited vm x) as [v|f]; [|discriminate]. cbn [bind] in *.
      apply IH; auto. intros X. apply Hn. right; auto.
  Qed.
  Lemma push_self : forall vm nx ns, In nx ns ->
    (forall x, In x ns -> exists b, visited vm x = Ok b) -> forall st,
    fold_return (fun stack succ => if dec succ nx then Ok (inr nx) else
        let! v := visited vm succ in Ok (inl (if v then stack else succ :: stack))) ns st
    = Ok (inr nx : list C + C).
  Proof.
    intros vm nx. induction ns as [|x ns IH]; intros Hn Hv st; [destruct Hn|]. cbn [fold_return].
    destruct (dec x nx) as [->|Hx]; [reflexivity|].
    destruct (Hv x (or_introl eq_refl)) as (b & ->). cbn [bind].
    apply IH; [destruct Hn; [contradiction|auto]|]. intros y Hy. apply Hv. right; auto.
  Qed.

  Lemma topo_sim : forall o x st dm fm D, VR dm D -> incl D board -> plain D ->
    (In x board \/ exists p, In p board /\ In x (raw p)) ->
    (In x board /\ In x (raw x) /\ tround (o, (x :: st, (dm, fm))) = Ok (inr (inr x))) \/
    exists D1, incl D1 board /\ plain D1 /\
      (forall st' dm' fm', dround (x :: st, (dm, fm)) = Ok (inl (st', (dm', fm'))) ->
         VR dm' D1 /\ tround (o, (x :: st, (dm, fm))) = Ok (inl (o, (st', (dm', fm'))))) /\
      (forall z st' dm' fm', dround (x :: st, (dm, fm)) = Ok (inr (Some z, (st', (dm', fm')))) ->
         VR dm' D1 /\ tround (o, (x :: st, (dm, fm))) = Ok (inl (o ++ [z], (st', (dm', fm'))))).
  Proof using Hnb Hfew Hoff Hvisit Hvisited VRext dec.
    clear Hreset Hfresh Hids Hnd Hlen reset fresh ids_next ids Ids. intros o x st dm fm D HV HI HP Hx.
    assert (OLD : forall dm1 D1, visit dm x = Ok (false, dm1) -> incl D1 board -> plain D1 ->
      VR dm1 D1 ->
      (forall st' dm' fm', dround (x :: st, (dm, fm)) = Ok (inl (st', (dm', fm'))) ->
         VR dm' D1 /\ tround (o, (x :: st, (dm, fm))) = Ok (inl (o, (st', (dm', fm'))))) /\
      (forall z st' dm' fm', dround (x :: st, (dm, fm)) = Ok (inr (Some z, (st', (dm', fm')))) ->
         VR dm' D1 /\ tround (o, (x :: st, (dm, fm))) = Ok (inl (o ++ [z], (st', (dm', fm')))))).
    { intros dm1 D1 E1 HI1 HP1 HV1. unfold dpo_round, topo_round. rewrite E1. cbn [bind].
      destruct (visit fm x) as [[b fm1]|f]; cbn [bind]; [|split; intros; discriminate].
      destruct b; split.
      - intros st' dm' fm' X. discriminate.
      - intros z st' dm' fm' X. injection X as <- <- <- <-. auto.
      - intros st' dm' fm' X. injection X as <- <- <-. auto.
      - intros z st' dm' fm' X. discriminate. }
    destruct (in_dec dec x board) as [Hxb|Hxb].
    - destruct (Hvisit dm D x HV Hxb) as (b & dm1 & E1 & Hb & V1). destruct b.
      + assert (HxD : ~ In x D) by (apply Hb; auto).
        assert (HI1 : incl (x :: D) board) by (intros y [<-|Hy]; auto).
        pose proof (Hfew x Hxb) as F.
        destruct (in_dec dec x (raw x)) as [Hs|Hs].
        * left. split; auto. split; auto. unfold topo_round. rewrite E1. cbn [bind].
          erewrite for_return_fold; [|exact (Hnb x Hxb)|lia|].
          2:{ apply push_self; auto. intros y Hy. destruct (in_dec dec y board) as [Hyb|Hyb].
              - destruct (Hvisited dm1 (x :: D) y V1 Hyb) as (b & Eb & _). eauto.
              - exists false. apply (Hoff x y Hxb Hy Hyb). }
          reflexivity.
        * right. exists (x :: D). split; auto. split; [intros c [<-|Hc]; auto|].
          destruct (push_any visited dec board VR Hvisited (raw x) (x :: D) dm1 V1) with (st := x :: st)
            as (news & F1 & _).
          { exact HI1. }
          { intros y Hy Hyb. apply (Hoff x y Hxb Hy Hyb). }
          assert (X1 : dround (x :: st, (dm, fm)) = Ok (inl (news ++ x :: st, (dm1, fm)))).
          { unfold dpo_round. rewrite E1. cbn [bind].
            rewrite (for_each_exact _ _ _ _ _ _ _ _ (Hnb x Hxb)) by lia. rewrite F1. reflexivity. }
          rewrite X1. split; [|intros; discriminate].
          intros st' dm' fm' X. injection X as <- <- <-. split; auto.
          unfold topo_round. rewrite E1. cbn [bind].
          erewrite for_return_fold; [|exact (Hnb x Hxb)|lia|apply push_plain; [exact Hs|exact F1]].
          reflexivity.
      + right. exists D. split; auto. split; auto. apply (OLD dm1); auto.
        eapply VRext; [exact V1|]. intros c. cbn [In]. split; auto. intros [<-|]; auto.
        destruct (in_dec dec x D); auto. exfalso. assert (false = true) by (apply Hb; auto). discriminate.
    - destruct Hx as [Hx|(p & Hp & Hx)]; [contradiction|].
      destruct (Hoff p x Hp Hx Hxb dm) as [E1 _].
      right. exists D. split; auto. split; auto. apply (OLD dm); auto.
  Qed.

  Lemma sk_top : forall start gs st, SK raw start gs st -> In start board -> incl gs board ->
    forall x, In x st -> In x board \/ exists p, In p board /\ In x (raw p).
  Proof.
    clear. intros start gs st H Hs. induction H as [|p gs st x H IH H1 H2|p gs st x H IH H1 H2];
      intros HI y Hy.
    - destruct Hy as [<-|[]]. auto.
    - destruct Hy as [<-|Hy]; [|auto]. right. exists p. split; auto. apply HI. left; auto.
    - assert (HI' : incl (p :: gs) board) by (intros z Hz; apply HI; right; auto).
      destruct Hy as [<-|Hy]; [|auto]. left. apply HI. left; auto.
  Qed.

  Section From.
    Context (start : C) (Hstart : In start board) (L0 : list C).
    Notation invs := (inv start L0).

    Lemma topo_next : forall k gs L D st dm fm o, invs gs L D st dm fm -> plain D ->
      (sz D st < k)%nat ->
      st = [] \/
      (exists n x, (n <= sz D st)%nat /\ In x board /\ In x (raw x) /\
         Rounds tround n (o, (st, (dm, fm))) (Ok (inr x))) \/
      exists n z gs' D' st' dm' fm', (S n + sz D' st' <= sz D st)%nat /\
        Rounds dround n (st, (dm, fm)) (Ok (Some z, (st', (dm', fm')))) /\
        (forall k R, Rounds tround k (o ++ [z], (st', (dm', fm'))) R ->
           Rounds tround (S n + k) (o, (st, (dm, fm))) R) /\
        invs gs' (L ++ [z]) D' st' dm' fm' /\ plain D'.
    Proof using Hnb Hfew Hoff Hvisit Hvisited VRext dec Hstart.
      clear Hreset Hfresh Hids Hnd Hlen reset fresh ids_next ids Ids.
      induction k as [|k IH]; intros gs L D st dm fm o HI HP Hk; [lia|].
      destruct st as [|x st]; [left; auto|right].
      assert (Hx : In x board \/ exists p, In p board /\ In x (raw p)).
      { destruct (iv_stack _ _ _ _ _ _ _ _ _ _ _ _ _ HI) as [HS|[_ HS]]; [|discriminate].
        eapply sk_top; [exact HS|auto| |left; auto].
        intros y Hy. apply (iv_board _ _ _ _ _ _ _ _ _ _ _ _ _ HI).
        apply (iv_grey _ _ _ _ _ _ _ _ _ _ _ _ _ HI), Hy. }
      destruct (topo_sim o x st dm fm D (iv_dm _ _ _ _ _ _ _ _ _ _ _ _ _ HI)
        (iv_board _ _ _ _ _ _ _ _ _ _ _ _ _ HI) HP Hx) as [(S1 & S2 & S3)|(D0 & B0 & P0 & SA & SB)].
      { left. exists 0%nat, x. split; [lia|]. split; auto. split; auto. apply R_done. auto. }
      destruct (step nb nb_next visit visited dec board raw VR Hnb Hfew Hoff Hvisit Hvisited VRext
        start Hstart L0 _ _ _ _ _ _ HI ltac:(discriminate))
        as [(gs1 & D1 & st1 & dm1 & fm1 & E1 & HI1 & HS1 & HD1)
           |(z & gs1 & st1 & dm1 & fm1 & E1 & HI1 & HS1 & HE1)].
      - destruct (SA _ _ _ E1) as [V1 T1].
        assert (P1 : plain D1).
        { intros c Hc. apply P0. revert c Hc. apply (vr_same dm1); auto.
          - exact (iv_dm _ _ _ _ _ _ _ _ _ _ _ _ _ HI1).
          - exact (iv_board _ _ _ _ _ _ _ _ _ _ _ _ _ HI1). }
        destruct (IH _ _ _ _ _ _ o HI1 P1 ltac:(lia))
          as [E0|[(n & y & Hn & Y1 & Y2 & Y3)
            |(n & z & gs2 & D2 & st2 & dm2 & fm2 & Hn & HR & HT & HI2 & HP2)]].
        + exfalso. subst st1.
          pose proof (inv_stack _ _ _ _ _ _ _ _ _ _ _ _ _ HI1 eq_refl) as ->.
          assert (Hy : exists c, In c gs).
          { destruct gs as [|c gs]; [|exists c; left; auto].
            pose proof (inv_open _ _ _ _ _ _ _ _ _ _ _ _ _ HI eq_refl). discriminate. }
          destruct Hy as (c & Hc). apply (iv_grey _ _ _ _ _ _ _ _ _ _ _ _ _ HI) in Hc.
          assert (F : In c []); [|destruct F]. apply (iv_grey _ _ _ _ _ _ _ _ _ _ _ _ _ HI1).
          split; [apply HD1|]; apply Hc.
        + left. exists (S n), y. split; [lia|]. split; auto. split; auto. eapply R_more; eauto.
        + right. exists (S n), z, gs2, D2, st2, dm2, fm2. split; [lia|].
          split; [eapply R_more; eauto|]. split; [|auto].
          intros k0 R HR0. change (S (S n) + k0)%nat with (S (S n + k0)).
          eapply R_more; [exact T1|]. apply HT. auto.
      - destruct (SB _ _ _ _ E1) as [V1 T1]. right.
        exists 0%nat, z, gs1, D, st1, dm1, fm1. split; [lia|]. split; [apply R_done; auto|].
        split; [|auto]. intros k0 R HR0. cbn [Nat.add]. eapply R_more; eauto.
    Qed.

    Lemma topo_run : forall k gs L D st dm fm o, invs gs L D st dm fm -> plain D ->
      (sz D st < k)%nat -> (sz D st <= length board * 9 + 9)%nat ->
      (exists n x, (n <= sz D st)%nat /\ In x board /\ In x (raw x) /\
         Rounds tround n (o, (st, (dm, fm))) (Ok (inr x))) \/
      exists n l D' dm' fm', (n <= sz D st)%nat /\
        Rounds tround n (o, (st, (dm, fm))) (Ok (inl (o ++ l, ([], (dm', fm'))))) /\
        Consumed (dpo_next nb nb_next visit visited) (st, (dm, fm)) l ([], (dm', fm')) /\
        VR dm' D' /\ plain D'.
    Proof using Hnb Hfew Hoff Hvisit Hvisited VRext dec Hstart Hlen.
      clear Hreset Hfresh Hids Hnd reset fresh ids_next ids Ids.
      induction k as [|k IH]; intros gs L D st dm fm o HI HP Hk Hb; [lia|].
      destruct (topo_next _ _ _ _ _ _ _ o HI HP Hk)
        as [->|[H|(n & z & gs1 & D1 & st1 & dm1 & fm1 & Hn & HR & HT & HI1 & HP1)]].
      - right. exists 0%nat, [], D, dm, fm. split; [lia|]. rewrite app_nil_r.
        split; [apply R_done; reflexivity|]. split; [constructor|]. split; auto.
        exact (iv_dm _ _ _ _ _ _ _ _ _ _ _ _ _ HI).
      - left. exact H.
      - destruct (IH _ _ _ _ _ _ (o ++ [z]) HI1 HP1 ltac:(lia) ltac:(lia))
          as [(n1 & x & N1 & X1 & X2 & X3)|(n1 & l & D2 & dm2 & fm2 & N1 & X1 & X2 & X3)].
        + left. exists (S n + n1)%nat, x. split; [lia|]. auto.
        + right. exists (S n + n1)%nat, (z :: l), D2, dm2, fm2. split; [lia|]. split; [|split; auto].
          * apply HT. rewrite <- app_assoc in X1. exact X1.
          * econstructor; [|exact X2]. unfold dpo_next. eapply loop_rounds; [exact HR|lia].
    Qed.
  End From.

  (** ** The first phase *)

  Notation tstart := (topo_start nb nb_next visit visited dec).

  Lemma topo_from : forall order dm fm i, In i board -> VR dm order -> VR fm order ->
    NoDup order -> incl order board -> closed order -> Crosses nb nb_next board raw order ->
    plain order -> ~ In i order ->
    (exists x, In x board /\ In x (raw x) /\
       loop tround (order, ([i], (dm, fm))) = Ok (inr x)) \/
    exists order' dm' fm',
      loop tround (order, ([i], (dm, fm))) = Ok (inl (order', ([], (dm', fm')))) /\
      VR dm' order' /\ VR fm' order' /\ NoDup order' /\ incl order' board /\ closed order' /\
      Crosses nb nb_next board raw order' /\ plain order' /\ In i order' /\ incl order order'.
  Proof using Hnb Hfew Hoff Hvisit Hvisited VRext dec Hlen.
    clear Hreset Hfresh Hids Hnd reset fresh ids_next ids Ids.
    intros order dm fm i Hi V1 V2 N1 I1 C1 X1 P1 Hio.
    destruct (post_from nb nb_next visit visited dec board raw VR Hnb Hfew Hoff Hvisit Hvisited
      VRext i Hi order ltac:(lia) N1 I1 C1 Hio dm fm V1 V2)
      as (l & dm2 & fm2 & F1 & F2 & F3 & F4 & F5 & F6 & F7 & F8).
    destruct (discover nb nb_next visit visited dec board raw VR Hnb Hfew Hoff Hvisit Hvisited
      i [] dm fm order V1 I1 Hi Hio) as (news & dm' & E1 & V3 & LN & HN).
    assert (HI : inv i order [i] order (i :: order) (news ++ [i]) dm' fm).
    { constructor; auto.
      - constructor; auto.
      - intros c Hc. right; auto.
      - intros c [<-|Hc]; auto.
      - intros c. cbn [In]. split; [|tauto]. intros [<-|[]]. auto.
      - left. apply sk_push; [apply sk_base|]. intros y Hy. apply HN in Hy. split; [tauto|].
        intros [<-|[]]. apply (proj2 Hy). left; auto.
      - intros p x [<-|[]] Hx Hxb. destruct (in_dec dec x (i :: order)) as [Hix|Hix]; auto. right.
        exists news, []. split; auto. split; [|apply HN; auto].
        intros X. apply HN in X. apply (proj2 X). left; auto.
      - intros c x Hc Hx Hxb. right. eauto.
      - intros c [<-|Hc]; auto. right. exists 0%nat. constructor.
      - apply incl_refl.
      - left; auto. }
    assert (LD : (length (i :: order) <= length board)%nat).
    { apply NoDup_incl_length; [constructor; auto|]. intros y [<-|Hy]; auto. }
    assert (SZ : (sz (i :: order) (news ++ [i]) <= length board * 9 + 9)%nat).
    { unfold size. rewrite app_length. cbn [length] in *. lia. }
    destruct (topo_sim order i [] dm fm order V1 I1 P1 (or_introl Hi))
      as [(S1 & S2 & S3)|(D0 & B0 & P0 & SA & SB)].
    { left. exists i. split; auto. split; auto. eapply loop_rounds; [apply R_done; exact S3|].
      reflexivity. }
    destruct (SA _ _ _ E1) as [VA T1].
    assert (P2 : plain (i :: order)).
    { intros c Hc. apply P0. revert c Hc. apply (vr_same dm'); auto.
      intros y [<-|Hy]; auto. }
    destruct (topo_run i Hi order _ _ _ _ _ _ _ order HI P2 (Nat.lt_succ_diag_r _) SZ)
      as [(n & x & Hn & Y1 & Y2 & Y3)|(n & l2 & D2 & dm3 & fm3 & Hn & Y1 & Y2 & Y3 & Y4)].
    - left. exists x. split; auto. split; auto.
      eapply loop_rounds; [eapply R_more; [exact T1|exact Y3]|lia].
    - right.
      assert (Y2' : Consumed (dpo_next nb nb_next visit visited) ([i], (dm, fm)) l2 ([], (dm3, fm3))).
      { destruct (run_next nb nb_next visit visited dec board raw VR Hnb Hfew Hoff Hvisit Hvisited
          VRext i Hi order _ _ _ _ _ _ _ HI (Nat.lt_succ_diag_r _))
          as [E0|(n1 & z & gs1 & D1 & st1 & dm1 & fm1 & Hn1 & HR & _)];
          [destruct news; discriminate|].
        assert (Z1 : dpo_next nb nb_next visit visited (news ++ [i], (dm', fm))
          = Ok (Some z, (st1, (dm1, fm1)))) by (eapply loop_rounds; [exact HR|lia]).
        assert (Z2 : dpo_next nb nb_next visit visited ([i], (dm, fm))
          = Ok (Some z, (st1, (dm1, fm1)))).
        { eapply loop_rounds; [eapply R_more; [exact E1|exact HR]|lia]. }
        inversion Y2 as [it0 Ei El Ea|it0 x it1 l0 it2 Hx HC' Ei El Ea]; subst.
        - destruct news; discriminate.
        - rewrite Z1 in Hx. injection Hx as <- <-. econstructor; [exact Z2|exact HC']. }
      destruct (consumed_det _ _ _ _ _ _ F1 _ (dpo_done nb nb_next visit visited (dm2, fm2))
        _ _ _ Y2' (dpo_done nb nb_next visit visited (dm3, fm3))) as [<- Ed].
      injection Ed as <- <-.
      assert (I2 : incl (order ++ l) board).
      { intros x Hx. apply F5 in Hx. destruct Hx as [Hx|Hx]; auto. eapply leads_in; eauto. }
      assert (C2 : closed (order ++ l)).
      { intros c x Hc Hx Hxb. apply F5. apply F5 in Hc. destruct Hc as [Hc|Hc]; [left; eauto|].
        right. eapply leads_trans; [exact Hc|]. eapply leads_step; eauto. exact (leads_in nb nb_next board i c Hi Hc). }
      exists (order ++ l), dm2, fm2.
      split; [eapply loop_rounds; [eapply R_more; [exact T1|exact Y1]|lia]|].
      split; auto. split; auto. split; auto. split; auto. split; auto.
      split; [apply crosses_app; auto|].
      split; [|split; [|apply incl_appl, incl_refl]].
      + intros c Hc. apply Y4. revert c Hc. apply (vr_same dm2); auto.
      + apply F5. right. apply leads_refl.
  Qed.

  Lemma topo_phase1 : forall l, incl l board -> forall order dm fm,
    VR dm order -> VR fm order -> NoDup order -> incl order board -> closed order ->
    Crosses nb nb_next board raw order -> plain order ->
    (exists x, In x board /\ In x (raw x) /\
       fold_return tstart l (order, ([], (dm, fm))) = Ok (inr x)) \/
    exists order' dm' fm', fold_return tstart l (order, ([], (dm, fm)))
        = Ok (inl (order', ([], (dm', fm')))) /\
      VR dm' order' /\ NoDup order' /\ incl order' board /\
      Crosses nb nb_next board raw order' /\ plain order' /\ incl l order' /\ incl order order'.
  Proof using Hnb Hfew Hoff Hvisit Hvisited VRext dec Hlen.
    clear Hreset Hfresh Hids Hnd reset fresh ids_next ids Ids.
    induction l as [|i l IH]; intros HI order dm fm V1 V2 N1 I1 C1 X1 P1.
    - right. exists order, dm, fm. split; [reflexivity|]. repeat (split; [assumption|]).
      split; [intros x []|apply incl_refl].
    - assert (Hi : In i board) by (apply HI; left; auto).
      assert (HI' : incl l board) by (intros x Hx; apply HI; right; auto).
      destruct (Hvisited dm order i V1 Hi) as (b & Eb & Hb).
      cbn [fold_return]. unfold topo_start at 1 3. rewrite Eb. cbn [bind]. destruct b.
      + cbn [bind]. destruct (IH HI' order dm fm V1 V2 N1 I1 C1 X1 P1)
          as [H|(o' & dm' & fm' & E1 & E2 & E3 & E4 & E5 & E6 & E7 & E8)]; [left; exact H|right].
        exists o', dm', fm'. repeat (split; [assumption|]). split; auto.
        intros x [<-|Hx]; auto. apply E8, Hb. auto.
      + assert (Hio : ~ In i order) by (intros H; apply Hb in H; discriminate).
        destruct (topo_from order dm fm i Hi V1 V2 N1 I1 C1 X1 P1 Hio)
          as [(x & S1 & S2 & S3)|(o1 & dm1 & fm1 & F1 & F2 & F3 & F4 & F5 & F6 & F7 & F8 & F9 & F10)].
        * left. exists x. split; auto. split; auto. rewrite S3. reflexivity.
        * rewrite F1. cbn [bind]. destruct (IH HI' o1 dm1 fm1 F2 F3 F4 F5 F6 F7 F8)
            as [H|(o' & dm' & fm' & E1 & E2 & E3 & E4 & E5 & E6 & E7 & E8)]; [left; exact H|right].
          exists o', dm', fm'. repeat (split; [assumption|]). split.
          -- intros x [<-|Hx]; auto.
          -- eapply incl_tran; eauto.
  Qed.

  (** ** The second phase *)

  Notation dnext := (dfs_next nb nb_next visit visited).

  (** From [i] the search finds [i] alone, or fails with a node that an edge leads to. *)
  Lemma topo_check_ok : forall M i vm, In i board -> VR vm M -> NoDup M -> incl M board ->
    closed M -> ~ In i M ->
    (exists st vm', topo_check nb nb_next visit visited i vm = Ok (inl (st, vm')) /\
       VR vm' (M ++ [i]) /\ closed (M ++ [i])) \/
    exists j, topo_check nb nb_next visit visited i vm = Ok (inr j) /\ In j board /\
      exists c, In c board /\ In j (raw c).
  Proof using Hnb Hfew Hoff Hvisit Hvisited VRext dec Hlen Hids Hnd Hfresh Hreset.
    intros M i vm Hi V N I CL Hn.
    destruct (dfs_from ids ids_next nb nb_next visit visited fresh reset dec board raw VR Hids Hnd
      Hnb Hfew Hoff Hvisit Hvisited VRext Hfresh Hreset Hlen M i vm Hi V N I CL Hn)
      as (l & it1 & vm' & F1 & F2 & F3 & F4 & F5 & F6 & F7).
    inversion F1 as [|? x it2 ? ? Hx HC]; subst. unfold topo_check.
    destruct l as [|j l].
    - left. inversion HC; subst. exists [], vm'. split; [|auto].
      eapply loop_rounds with (n := 1%nat); [|reflexivity].
      eapply R_more; [cbn [fst snd]; rewrite Hx; reflexivity|].
      apply R_done. cbn [fst snd]. rewrite F2. reflexivity.
    - right. inversion HC as [|? y it3 ? ? Hy HC']; subst. exists j. split; [|].
      + eapply loop_rounds with (n := 1%nat); [|reflexivity].
        eapply R_more; [cbn [fst snd]; rewrite Hx; reflexivity|].
        apply R_done. cbn [fst snd]. rewrite Hy. reflexivity.
      + assert (Hj : In j board) by (apply F5, in_or_app; right; right; left; auto). split; auto.
        destruct (proj1 (F7 j) (or_intror (or_introl eq_refl))) as [(n & Hr) _].
        inversion Hr as [|n' b c ln Hb HD Hc Hcb]; subst.
        * exfalso. apply NoDup_remove_2 in F4. apply F4. apply in_or_app. right. left. auto.
        * assert (Hbb : In b board) by (apply (leads_in nb nb_next board i b Hi); eauto).
          exists b. split; auto. rewrite (Drains_det _ _ _ _ (Hnb b Hbb) HD). auto.
  Qed.

  (** If it succeeds from all nodes, no edge leads from a node to one after it. *)
  Lemma topo_checks_ok : forall l pre, NoDup (pre ++ l) -> incl (pre ++ l) board -> closed pre ->
    forall st vm, VR vm pre ->
    (topo_checks nb nb_next visit visited l (st, vm) = Ok None /\
     forall p c q, l = p ++ c :: q -> closed (pre ++ p ++ [c])) \/
    exists j, topo_checks nb nb_next visit visited l (st, vm) = Ok (Some j) /\ In j board /\
      exists c, In c board /\ In j (raw c).
  Proof using Hnb Hfew Hoff Hvisit Hvisited VRext dec Hlen Hids Hnd Hfresh Hreset.
    induction l as [|i l IH]; intros pre ND HI CL st vm V; cbn [topo_checks].
    - left. split; [reflexivity|]. intros p c q El. destruct p; discriminate.
    - assert (NP : NoDup pre).
      { clear - ND. induction pre as [|a pre IHp]; constructor; inversion ND; subst; auto.
        intros X. apply H1, in_or_app; auto. }
      assert (Hi : ~ In i pre) by (intros X; apply NoDup_remove_2 in ND; apply ND, in_or_app; auto).
      destruct (topo_check_ok pre i vm) as [(st' & vm' & E1 & V1 & C1)|(j & E1 & Hj)]; auto.
      { apply HI, in_or_app. right; left; auto. }
      { intros x Hx. apply HI, in_or_app. auto. }
      + cbn [snd]. rewrite E1. cbn [bind].
        assert (EA : pre ++ i :: l = (pre ++ [i]) ++ l) by (rewrite <- app_assoc; reflexivity).
        rewrite EA in ND, HI.
        destruct (IH (pre ++ [i]) ND HI C1 st' vm' V1) as [[E2 C2]|H]; [left|right; exact H].
        split; auto. intros p c q El. destruct p as [|i' p]; injection El as <- El.
        * exact C1.
        * pose proof (C2 p c q El) as C3. rewrite <- app_assoc in C3. exact C3.
      + right. exists j. split; auto. cbn [snd]. rewrite E1. reflexivity.
  Qed.

  Lemma toposort_any : exists r,
    toposort ids ids_next nb nb nb_next visit visited fresh reset dec = Ok r /\
    match r with
    | inl l => Permutation l board /\
        forall c d, In c board -> In d (raw c) -> ~ In d board
    | inr j => In j board /\ exists c, In c board /\ In j (raw c)
    end.
  Proof using All.
    unfold toposort.
    destruct (topo_phase1 board (incl_refl _) [] (reset fresh) fresh (Hreset _ _ Hfresh) Hfresh
      (NoDup_nil _)) as [(x & S1 & S2 & S3)|(o & dm & fm & E1 & E2 & E3 & E4 & E5 & E6 & E7 & _)].
    { intros x []. }
    { intros c x []. }
    { intros p z q c x El. destruct p; discriminate. }
    { intros c []. }
    - erewrite for_return_fold; [|exact Hids|lia|exact S3]. cbn [bind].
      exists (inr x). split; eauto.
    - erewrite for_return_fold; [|exact Hids|lia|exact E1]. cbn [bind].
      assert (ND : NoDup (rev o)) by (apply NoDup_rev; auto).
      assert (HI : incl (rev o) board) by (intros c Hc; apply E4, in_rev; auto).
      destruct (topo_checks_ok (rev o) [] ND HI ltac:(intros c x []) [] (reset dm) (Hreset _ _ E2))
        as [[F1 F2]|(j & F1 & F2)]; rewrite F1; cbn [bind].
      + exists (inl (rev o)). split; [reflexivity|]. split.
        * apply NoDup_Permutation; auto. intros c. rewrite <- in_rev. split; auto.
        * intros c d Hc Hd Hdb. pose proof (E7 c Hc) as Hco.
          destruct (in_split c o Hco) as (p & q & Eo).
          assert (Er : rev o = rev q ++ c :: rev p).
          { rewrite Eo, rev_app_distr. cbn [rev]. rewrite <- app_assoc. reflexivity. }
          pose proof (F2 _ _ _ Er) as CL. cbn [app] in CL.
          assert (Hq : In d q).
          { assert (X : In d (rev q ++ [c])).
            { apply (CL c d); auto. apply in_or_app. right. left; auto. }
            apply in_app_or in X. destruct X as [X|[<-|[]]]; [apply in_rev; auto|].
            exfalso. exact (E6 c Hco Hd). }
          assert (LD : leads d c).
          { apply (E5 p c q c d Eo); auto. apply in_or_app. right. left; auto. }
          assert (CQ : closed (rev q)).
          { clear - F2 Er. destruct (rev q) as [|a t _] eqn:Eq using rev_ind; [intros c0 x []|].
            rewrite <- app_assoc in Er. exact (F2 _ _ _ Er). }
          assert (Hcq : In c (rev q)).
          { eapply (closed_leads nb nb_next board raw Hnb (rev q)); [|exact CQ| |exact LD].
            - intros x Hx. apply HI. rewrite Er. apply in_or_app. auto.
            - apply in_rev. rewrite rev_involutive. auto. }
          rewrite Er in ND. apply NoDup_remove_2 in ND. apply ND, in_or_app. auto.
      + exists (inr j). split; auto.
  Qed.
End Any.
