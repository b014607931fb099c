(** * PostAny: post-orders on graphs whose [neighbors] may name things that are not nodes and
    where not every node is found. *)

From Verif Require Import Machine Traverse Clients Basics TraverseProofs Spec11 AnySearch.
From Coq Require Import ZifyBool ZifyNat.

Lemma snoc_nodup : forall X (l : list X) x, NoDup l -> ~ In x l -> NoDup (l ++ [x]).
Proof.
  intros X l x H1 H2. apply NoDup_Add with (a := x) (l := l); [|auto].
  rewrite <- (app_nil_r l) at 1. apply Add_app.
Qed.

Lemma nodup_apart : forall X (l l' : list X) x, NoDup (l ++ l') -> In x l -> In x l' -> False.
Proof.
  induction l as [|a l IH]; intros l' x H H1 H2; [destruct H1|]. cbn [app] in H.
  inversion H; subst. destruct H1 as [<-|H1]; [|eauto]. apply H4. apply in_or_app. auto.
Qed.

Section Any.
  Context {C It VM : Type} (nb : C -> It) (nb_next : C -> It -> outcome (option C * It))
    (visit : VM -> C -> outcome (bool * VM)) (visited : VM -> C -> outcome bool)
    (dec : forall a b : C, {a = b} + {a <> b})
    (board : list C) (raw : C -> list C) (VR : VM -> list C -> Prop)
    (Hnb : forall c, In c board -> Drains (nb_next c) (nb c) (raw c))
    (Hfew : forall c, In c board -> (length (raw c) <= 8)%nat)
    (Hoff : forall c x, In c board -> In x (raw c) -> ~ In x board -> forall vm,
       visit vm x = Ok (false, vm) /\ visited vm x = Ok false)
    (Hvisit : forall vm M c, VR vm M -> In c board ->
       exists b vm', visit vm c = Ok (b, vm') /\ (b = true <-> ~ In c M) /\ VR vm' (c :: M))
    (Hvisited : forall vm M c, VR vm M -> In c board ->
       exists b, visited vm c = Ok b /\ (b = true <-> In c M))
    (VRext : forall vm M M', VR vm M -> (forall c, In c M <-> In c M') -> VR vm M')
    (start : C) (Hstart : In start board)
    (L0 : list C) (* finished before *).

  Notation round := (dpo_round nb nb_next visit visited).
  Notation reached := (fun c => exists n, Reached nb nb_next board start n c).

  (** The nodes being visited, innermost first, and the stack: above each of them lie
      neighbours of it. *)
  Inductive SK : list C -> list C -> Prop :=
  | sk_base : SK [start] [start]
  | sk_block p gs st x :
      SK (p :: gs) st -> In x (raw p) -> ~ In x (p :: gs) -> SK (p :: gs) (x :: st)
  | sk_grey p gs st x :
      SK (p :: gs) st -> In x (raw p) -> ~ In x (p :: gs) -> SK (x :: p :: gs) (x :: st).

  Lemma sk_push : forall p gs news st, SK (p :: gs) st ->
    (forall x, In x news -> In x (raw p) /\ ~ In x (p :: gs)) -> SK (p :: gs) (news ++ st).
  Proof.
    intros p gs. induction news as [|x news IH]; intros st HS H; [exact HS|]. cbn [app].
    destruct (H x (or_introl eq_refl)) as [H1 H2]. apply sk_block; auto.
    apply IH; auto. intros y Hy. apply H. right; auto.
  Qed.

  Record Inv (gs L D st : list C) (dm fm : VM) : Prop := {
    iv_dm : VR dm D;
    iv_fm : VR fm L;
    iv_ndl : NoDup L;
    iv_ndd : NoDup D;
    iv_sub : incl L D;
    iv_board : incl D board;
    iv_grey : forall c, In c gs <-> In c D /\ ~ In c L;
    iv_stack : SK gs st \/ (gs = [] /\ st = []);
    iv_open : forall p x, In p gs -> In x (raw p) -> In x board ->
      In x D \/ exists st1 st2, st = st1 ++ p :: st2 /\ ~ In p st1 /\ In x st1;
    iv_done : forall c x, In c L -> In x (raw c) -> In x board -> In x D;
    iv_reached : forall c, In c D -> In c L0 \/ reached c;
    iv_old : incl L0 L;
    iv_start : In start D }.

  Definition size (D st : list C) : nat := ((length board - length D) * 9 + length st)%nat.

  Lemma push_any : forall ns D vm, VR vm D -> incl D board ->
    (forall x, In x ns -> ~ In x board -> visited vm x = Ok false) -> forall st,
    exists news, fold_outcome (fun stack succ =>
        let! v := visited vm succ in Ok (if v then stack else succ :: stack)) ns st
      = Ok (news ++ st) /\ (length news <= length ns)%nat /\
      (forall x, In x news <-> In x ns /\ ~ In x D).
  Proof using Hvisited dec.
    clear - Hvisited dec. induction ns as [|n ns IH]; intros D vm HV HI HO st.
    - exists []. repeat split; auto; intros []; auto.
    - assert (HV1 : exists b, visited vm n = Ok b /\ (b = true <-> In n D)).
      { destruct (in_dec dec n board) as [Hn|Hn]; [apply Hvisited; auto|].
        exists false. split; [apply HO; [left|]; auto|]. split; [discriminate|].
        intros Hd. exfalso. apply Hn, HI, Hd. }
      destruct HV1 as (b & E & Hb). cbn [fold_outcome]. rewrite E. cbn [bind].
      destruct (IH D vm HV HI ltac:(intros x Hx; apply HO; right; auto) (if b then st else n :: st))
        as (news & F1 & F2 & F3). destruct b.
      + exists news. split; auto. split; [cbn [length]; lia|]. intros x. rewrite F3. cbn [In].
        split; [tauto|]. intros [[<-|H] H2]; auto. exfalso. apply H2, Hb. auto.
      + exists (news ++ [n]). split; [rewrite F1, <- app_assoc; reflexivity|].
        split; [rewrite app_length; cbn [length]; lia|].
        assert (HnD : ~ In n D) by (intros H; apply Hb in H; discriminate).
        intros x. rewrite in_app_iff, F3. cbn [In]. split; [intros [[]|[<-|[]]]; auto|].
        intros [[<-|H] H2]; auto.
  Qed.

  (** Discovering [x], the top of the stack. *)
  Lemma discover : forall x st dm fm D, VR dm D -> incl D board -> In x board -> ~ In x D ->
    exists news dm', round (x :: st, (dm, fm)) = Ok (inl (news ++ x :: st, (dm', fm))) /\
      VR dm' (x :: D) /\ (length news <= 8)%nat /\
      forall y, In y news <-> In y (raw x) /\ ~ In y (x :: D).
  Proof using Hnb Hfew Hoff Hvisit Hvisited dec.
    clear Hstart VRext start. intros x st dm fm D HV HI Hx HxD.
    destruct (Hvisit dm D x HV Hx) as (b & dm' & E1 & Hb & HV'). destruct b.
    2:{ exfalso. assert (false = true) by (apply Hb; auto). discriminate. }
    destruct (push_any (raw x) (x :: D) dm' HV') with (st := x :: st) as (news & F1 & F2 & F3).
    { intros y [<-|Hy]; auto. }
    { intros y Hy Hyb. apply (Hoff x y Hx Hy Hyb). }
    exists news, dm'. split; [|split; [auto|split; [|auto]]].
    - unfold dpo_round. rewrite E1. cbn [bind].
      rewrite (for_each_exact _ _ _ _ _ _ _ _ (Hnb x Hx)).
      + rewrite F1. reflexivity.
      + pose proof (Hfew x Hx). lia.
    - pose proof (Hfew x Hx). lia.
  Qed.

  Lemma sk_grey_nodup : forall gs st, SK gs st -> NoDup gs.
  Proof.
    induction 1 as [|p gs st x H IH H1 H2|p gs st x H IH H1 H2]; auto.
    - constructor; [intros []|constructor].
    - constructor; auto.
  Qed.

  (** Every node being visited leads to the innermost one. *)
  Lemma sk_chain : forall gs st, SK gs st -> incl gs board -> forall z gs', gs = z :: gs' ->
    forall a, In a gs -> exists n, Reached nb nb_next board a n z.
  Proof using Hnb.
    induction 1 as [|p gs st x H IH H1 H2|p gs st x H IH H1 H2]; intros HI z gs' Ez a Ha.
    - injection Ez as <- _. destruct Ha as [<-|[]]. exists 0%nat. constructor.
    - exact (IH HI z gs' Ez a Ha).
    - injection Ez as <- _. destruct Ha as [<-|Ha]; [exists 0%nat; constructor|].
      destruct (IH ltac:(intros y Hy; apply HI; right; auto) p gs eq_refl a Ha) as (n & Hn).
      exists (S n). eapply reached_step; [exact Hn|apply Hnb, HI; right; left; auto|auto|].
      apply HI. left; auto.
  Qed.

  (** What is known when [z] is finished, with [gs] still being visited and [D] discovered. *)
  Definition emitted (z : C) (gs D : list C) : Prop :=
    (z = start /\ gs = [] \/ exists p, In p gs /\ In p board /\ In z (raw p)) /\
    (forall x, In x gs -> exists n, Reached nb nb_next board x n z) /\
    forall x, In x (raw z) -> In x board -> In x D.

  Lemma step : forall gs L D st dm fm, Inv gs L D st dm fm -> st <> [] ->
    (exists gs' D' st' dm' fm', round (st, (dm, fm)) = Ok (inl (st', (dm', fm'))) /\
       Inv gs' L D' st' dm' fm' /\ (size D' st' < size D st)%nat /\ incl D D') \/
    (exists z gs' st' dm' fm', round (st, (dm, fm)) = Ok (inr (Some z, (st', (dm', fm')))) /\
       Inv gs' (L ++ [z]) D st' dm' fm' /\ (size D st' < size D st)%nat /\ emitted z gs' D).
  Proof using Hnb Hfew Hoff Hvisit Hvisited VRext dec Hstart.
    intros gs L D st dm fm HI Hne. destruct HI as [I1 I2 I3 I4 I5 I6 I7 I8 I9 I9' I10 I10' I11].
    destruct I8 as [HS|[_ ->]]; [|congruence].
    assert (GD : forall p, In p gs -> In p D) by (intros p Hp; apply I7; auto).
    (* finishing the innermost node *)
    assert (FIN : forall z gs' st', gs = z :: gs' -> st = z :: st' ->
      (SK gs' st' \/ (gs' = [] /\ st' = [])) ->
      (z = start /\ gs' = [] \/ exists p, In p gs' /\ In z (raw p)) ->
      exists z gs' st' dm' fm', round (st, (dm, fm)) = Ok (inr (Some z, (st', (dm', fm')))) /\
       Inv gs' (L ++ [z]) D st' dm' fm' /\ (size D st' < size D st)%nat /\ emitted z gs' D).
    { intros z gs' st' -> -> HS' Hp.
      destruct (proj1 (I7 z) (or_introl eq_refl)) as [HzD HzL]. pose proof (I6 z HzD) as Hzb.
      destruct (Hvisit dm D z I1 Hzb) as (b & dm' & E1 & Hb & V1).
      assert (b = false) by (destruct b; auto; exfalso; apply Hb; auto). subst b.
      destruct (Hvisit fm L z I2 Hzb) as (b & fm' & E2 & Hb2 & V2).
      assert (b = true) by (apply Hb2; auto). subst b.
      pose proof (sk_grey_nodup _ _ HS) as ND. inversion ND as [|? ? N1 N2]; subst.
      assert (HZ : forall x, In x (raw z) -> In x board -> In x D).
      { intros x Hx Hxb. destruct (I9 z x (or_introl eq_refl) Hx Hxb) as [X|(s1 & s2 & X1 & X2 & X3)];
          auto. destruct s1 as [|a s1]; [destruct X3|]. injection X1 as <- _. exfalso. apply X2. left; auto. }
      exists z, gs', st', dm', fm'. split; [|split; [|split; [|]]].
      - unfold dpo_round. rewrite E1. cbn [bind]. rewrite E2. reflexivity.
      - constructor; auto.
        + eapply VRext; [exact V1|]. intros c. cbn [In]. split; auto. intros [<-|]; auto.
        + eapply VRext; [exact V2|]. intros c. rewrite in_app_iff. cbn [In]. tauto.
        + apply snoc_nodup; auto.
        + intros c Hc. apply in_app_or in Hc. destruct Hc as [Hc|[<-|[]]]; auto.
        + intros c. rewrite in_app_iff. cbn [In]. split.
          * intros Hc. destruct (proj1 (I7 c) (or_intror Hc)) as [X1 X2]. split; auto.
            intros [X|[<-|[]]]; auto.
          * intros [X1 X2]. destruct (proj2 (I7 c)) as [<-|X]; auto. exfalso. auto.
        + intros p x Hpp Hx Hxb.
          destruct (I9 p x (or_intror Hpp) Hx Hxb) as [X|(s1 & s2 & X1 & X2 & X3)]; auto.
          destruct s1 as [|a s1]; [destruct X3|]. injection X1 as <- X1.
          destruct X3 as [<-|X3]; auto. right. exists s1, s2. split; auto. split; auto.
          intros X; apply X2; right; auto.
        + intros c x Hc. apply in_app_or in Hc. destruct Hc as [Hc|[<-|[]]]; eauto.
        + apply incl_appl. auto.
      - unfold size. cbn [length]. lia.
      - split; [|split; [|exact HZ]].
        + destruct Hp as [Hp|(p & P1 & P2)]; auto. right. exists p. split; auto. split; auto.
          apply I6, GD. right; auto.
        + intros x Hx. refine (sk_chain _ _ HS _ z gs' eq_refl x (or_intror Hx)).
          intros y Hy. apply I6, GD, Hy. }
    inversion HS as [E1 E2|p gs0 st0 x HS0 Hx Hn E1 E2|p gs0 st0 x HS0 Hx Hn E1 E2]; subst.
    - right. apply (FIN start [] []); auto.
    - (* a neighbour of [p] *)
      left. pose proof (I6 p (GD p (or_introl eq_refl))) as Hpb.
      (* dropping a top that is no open node *)
      assert (OPEN : (In x board -> In x D) -> forall q y, In q (p :: gs0) -> In y (raw q) ->
        In y board -> In y D \/ exists st1 st2, st0 = st1 ++ q :: st2 /\ ~ In q st1 /\ In y st1).
      { intros Hd q y Hq Hy Hyb. destruct (I9 q y Hq Hy Hyb) as [X|(s1 & s2 & X1 & X2 & X3)]; auto.
        destruct s1 as [|a s1]; [destruct X3|]. injection X1 as <- X1.
        destruct X3 as [<-|X3]; auto. right. exists s1, s2. split; auto. split; auto.
        intros X; apply X2; right; auto. }
      destruct (in_dec dec x board) as [Hxb|Hxb].
      + destruct (in_dec dec x D) as [HxD|HxD].
        * assert (HxL : In x L).
          { destruct (in_dec dec x L); auto. exfalso. apply Hn. apply I7. auto. }
          destruct (Hvisit dm D x I1 Hxb) as (b & dm' & E1 & Hb & V1).
          assert (b = false) by (destruct b; auto; exfalso; apply Hb; auto). subst b.
          destruct (Hvisit fm L x I2 Hxb) as (b & fm' & E2 & Hb2 & V2).
          assert (b = false) by (destruct b; auto; exfalso; apply Hb2; auto). subst b.
          exists (p :: gs0), D, st0, dm', fm'. split; [|split; [|split; [|apply incl_refl]]].
          -- unfold dpo_round. rewrite E1. cbn [bind]. rewrite E2. reflexivity.
          -- constructor; auto.
             ++ eapply VRext; [exact V1|]. intros c. cbn [In]. split; auto. intros [<-|]; auto.
             ++ eapply VRext; [exact V2|]. intros c. cbn [In]. split; auto. intros [<-|]; auto.
          -- unfold size. cbn [length]. lia.
        * destruct (discover x st0 dm fm D I1 I6 Hxb HxD) as (news & dm' & E1 & V1 & LN & HN).
          exists (x :: p :: gs0), (x :: D), (news ++ x :: st0), dm', fm. split; auto.
          assert (LD : (length (x :: D) <= length board)%nat).
          { apply NoDup_incl_length; [constructor; auto|]. intros y [<-|Hy]; auto. }
          split; [|split; [|intros y Hy; right; auto]].
          -- constructor; auto.
             ++ constructor; auto.
             ++ intros y Hy. right. auto.
             ++ intros y [<-|Hy]; auto.
             ++ intros c. change (In c (x :: p :: gs0)) with (x = c \/ In c (p :: gs0)).
                rewrite I7. cbn [In]. split; [|tauto]. intros [<-|[X1 X2]]; auto.
             ++ left. apply sk_push; [apply sk_grey; auto|]. intros y Hy. apply HN in Hy.
                destruct Hy as [Hy1 Hy2]. split; auto. intros [<-|Hy3]; apply Hy2; [left; auto|].
                right. apply GD. auto.
             ++ intros q y Hq Hy Hyb. destruct Hq as [<-|Hq].
                ** destruct (in_dec dec y (x :: D)) as [Hi|Hi]; auto. right.
                   exists news, st0. split; auto. split; [|apply HN; auto].
                   intros X. apply HN in X. apply (proj2 X). left; auto.
                ** destruct (I9 q y Hq Hy Hyb) as [X|(s1 & s2 & X1 & X2 & X3)]; [left; right; auto|].
                   right. exists (news ++ s1), s2. rewrite X1, app_assoc. split; auto. split.
                   --- intros X. apply in_app_or in X. destruct X as [X|X]; auto.
                       apply HN in X. apply (proj2 X). right. apply GD. auto.
                   --- apply in_or_app. auto.
             ++ intros c y Hc Hy Hyb. right. eauto.
             ++ intros c [<-|Hc]; auto. right.
                destruct (proj1 (I7 p) (or_introl eq_refl)) as [P1 P2].
                destruct (I10 p P1) as [P3|(n & Hr)]; [exfalso; auto|].
                exists (S n). eapply reached_step; eauto.
             ++ right. auto.
          -- unfold size. rewrite app_length. cbn [length] in *. lia.
      + (* not a node *)
        exists (p :: gs0), D, st0, dm, fm.
        destruct (Hoff p x Hpb Hx Hxb dm) as [E1 _]. destruct (Hoff p x Hpb Hx Hxb fm) as [E2 _].
        split; [|split; [|split; [|apply incl_refl]]].
        * unfold dpo_round. rewrite E1. cbn [bind]. rewrite E2. reflexivity.
        * constructor; auto. apply OPEN. contradiction.
        * unfold size. cbn [length]. lia.
    - right. apply (FIN x (p :: gs0) st0); auto. right. exists p. split; auto. left; auto.
  Qed.

  Lemma inv_open : forall gs L D st dm fm, Inv gs L D st dm fm -> gs = [] -> st = [].
  Proof.
    intros gs L D st dm fm HI ->. destruct (iv_stack _ _ _ _ _ _ HI) as [H|[_ H]]; auto. inversion H.
  Qed.
  Lemma inv_stack : forall gs L D st dm fm, Inv gs L D st dm fm -> st = [] -> gs = [].
  Proof.
    intros gs L D st dm fm HI ->. destruct (iv_stack _ _ _ _ _ _ HI) as [H|[H _]]; auto. inversion H.
  Qed.

  Lemma run_next : forall k gs L D st dm fm, Inv gs L D st dm fm -> (size D st < k)%nat ->
    st = [] \/
    exists n z gs' D' st' dm' fm', (n <= size D st)%nat /\
      Rounds round n (st, (dm, fm)) (Ok (Some z, (st', (dm', fm')))) /\
      Inv gs' (L ++ [z]) D' st' dm' fm' /\ (size D' st' < size D st)%nat /\
      incl D D' /\ emitted z gs' D'.
  Proof using Hnb Hfew Hoff Hvisit Hvisited VRext dec Hstart.
    induction k as [|k IH]; intros gs L D st dm fm HI Hk; [lia|].
    destruct st as [|x st]; [left; auto|right].
    destruct (step _ _ _ _ _ _ HI ltac:(discriminate))
      as [(gs1 & D1 & st1 & dm1 & fm1 & E1 & HI1 & HS1 & HD1)|(z & gs1 & st1 & dm1 & fm1 & E1 & HI1 & HS1 & HE1)].
    - destruct (IH _ _ _ _ _ _ HI1 ltac:(lia))
        as [E0|(n & z & gs2 & D2 & st2 & dm2 & fm2 & Hn & HR & HI2 & HS2 & HD2 & HE2)].
      + exfalso. subst st1. pose proof (inv_stack _ _ _ _ _ _ HI1 eq_refl) as ->.
        assert (Hx : exists c, In c gs).
        { destruct gs as [|c gs]; [|exists c; left; auto].
          pose proof (inv_open _ _ _ _ _ _ HI eq_refl). discriminate. }
        destruct Hx as (c & Hc). apply (iv_grey _ _ _ _ _ _ HI) in Hc.
        assert (F : In c []); [|destruct F]. apply (iv_grey _ _ _ _ _ _ HI1). split; [apply HD1|]; apply Hc.
      + exists (S n), z, gs2, D2, st2, dm2, fm2. split; [lia|]. split; [eapply R_more; eauto|].
        split; auto. split; [lia|]. split; auto. eapply incl_tran; eauto.
    - exists 0%nat, z, gs1, D, st1, dm1, fm1. split; [lia|]. split; [apply R_done; auto|].
      split; auto. split; auto. split; auto. apply incl_refl.
  Qed.

  (** [l] is a post-order: each node is followed by one that it is a neighbour of, and [start]
      is the last; if a neighbour [x] of [c] comes after a [z] that comes after [c] or is [c],
      [x] leads to [z]. *)
  Definition Rooted (l : list C) : Prop :=
    forall l1 c l2, l = l1 ++ c :: l2 ->
      c = start /\ l2 = [] \/ exists p, In p l2 /\ In p board /\ In c (raw p).
  Definition Crossing (l : list C) : Prop :=
    forall p z q c x, l = p ++ z :: q -> In c (p ++ [z]) -> In x (raw c) -> In x board ->
      In x q -> exists n, Reached nb nb_next board x n z.

  Lemma run_drains : Z.of_nat (length board) * 9 + 10 < 2 ^ 72 ->
    forall k gs L D st dm fm, Inv gs L D st dm fm -> (size D st < k)%nat ->
    (size D st <= length board * 9 + 9)%nat ->
    exists l dm' fm',
      Consumed (dpo_next nb nb_next visit visited) (st, (dm, fm)) l ([], (dm', fm')) /\
      (VR dm' (L ++ l) /\ VR fm' (L ++ l)) /\ (gs = [] -> l = []) /\ NoDup (L ++ l) /\ incl D (L ++ l) /\
      (forall c, In c (L ++ l) -> In c L0 \/ reached c) /\
      (forall c x, In c (L ++ l) -> In x (raw c) -> In x board -> In x (L ++ l)) /\
      Rooted l /\ Crossing l /\
      forall x p z q, In x D -> l = p ++ z :: q -> In x q ->
        exists n, Reached nb nb_next board x n z.
  Proof using Hnb Hfew Hoff Hvisit Hvisited VRext dec Hstart.
    intros Hlen. induction k as [|k IH]; intros gs L D st dm fm HI Hk Hb; [lia|].
    destruct (run_next _ _ _ _ _ _ _ HI Hk)
      as [->|(n & z & gs1 & D1 & st1 & dm1 & fm1 & Hn & HR & HI1 & HS1 & HD1 & HE1)].
    - exists [], dm, fm. split; [constructor|].
      rewrite app_nil_r. pose proof (inv_stack _ _ _ _ _ _ HI eq_refl) as ->.
      assert (DL : incl D L).
        { intros c Hc. destruct (in_dec dec c L) as [|Hx]; auto. exfalso.
          assert (F : In c []); [|destruct F]. apply (iv_grey _ _ _ _ _ _ HI). auto. }
        destruct HI as [I1 I2 I3 I4 I5 I6 I7 I8 I9 I9' I10 I10' I11].
      assert (DV : VR dm L) by (eapply VRext; [exact I1|]; intros c; split; auto).
      repeat split; auto.
      + intros c x Hc Hx Hxb. apply DL. eauto.
      + intros l1 c l2 El. destruct l1; discriminate.
      + intros p z q c x El. destruct p; discriminate.
      + intros x p z q _ El. destruct p; discriminate.
    - destruct (IH _ _ _ _ _ _ HI1 ltac:(lia) ltac:(lia)) as (l & dm2 & fm2 & H1 & H0 & H2 & H3 & H4 & H5 & H6 & H7 & H8 & H9).
      assert (EA : (L ++ [z]) ++ l = L ++ z :: l) by (rewrite <- app_assoc; reflexivity).
      rewrite EA in *. exists (z :: l), dm2, fm2.
      assert (GL : incl gs1 l).
      { intros p Hp. apply (iv_grey _ _ _ _ _ _ HI1) in Hp. destruct Hp as [P1 P2].
        apply H4 in P1. rewrite <- EA in P1. apply in_app_or in P1. tauto. }
      destruct HE1 as (Z1 & Z2 & Z3).
      assert (HG : forall x p y q, In x D1 -> z :: l = p ++ y :: q -> In x q ->
        exists n, Reached nb nb_next board x n y).
      { intros x p y q Hx El Hq. destruct p as [|z' p]; cbn [app] in El; injection El as <- El.
        - subst q. apply Z2. apply (iv_grey _ _ _ _ _ _ HI1). split; auto. intros HL.
          rewrite <- EA in H3. eapply nodup_apart; eauto.
        - eapply H9; eauto. }
      split; [|split; [auto|split; [|split; [|split; [|split; [|split; [|split; [|split]]]]]]]]; auto.
      + econstructor; [|exact H1]. unfold dpo_next.
        eapply loop_rounds; [exact HR|lia].
      + intros ->. exfalso. pose proof (inv_open _ _ _ _ _ _ HI eq_refl) as ->.
        inversion HR as [s r E|s f E|s s' n' x E HR']; subst; discriminate.
      + eapply incl_tran; eauto.
      + intros l1 c l2 El. destruct l1 as [|z' l1]; cbn [app] in El; injection El as <- El.
        * subst l2. destruct Z1 as [[Z1 Z1']|(p & P1 & P2 & P3)]; [left; auto|right].
          exists p. auto.
        * eapply H7; eauto.
      + intros p y q c x El Hc Hx Hxb Hq. destruct p as [|z' p]; cbn [app] in El.
        * injection El as <- <-. destruct Hc as [<-|[]]. apply (HG x [] z l); auto.
        * cbn [app] in Hc. destruct Hc as [<-|Hc].
          -- injection El as <- El. apply (HG x (z :: p) y q); auto. cbn [app]. congruence.
          -- injection El as _ El. eapply H8; eauto.
      + intros x p y q Hx El Hq. apply (HG x p y q); auto.
  Qed.

  (** From [start], with [L0] finished before and leading nowhere else. *)
  Lemma post_from : Z.of_nat (length board) * 9 + 10 < 2 ^ 72 -> NoDup L0 -> incl L0 board ->
    (forall c x, In c L0 -> In x (raw c) -> In x board -> In x L0) -> ~ In start L0 ->
    forall dm fm, VR dm L0 -> VR fm L0 ->
    exists l dm' fm',
      Consumed (dpo_next nb nb_next visit visited) ([start], (dm, fm)) l ([], (dm', fm')) /\
      VR dm' (L0 ++ l) /\ VR fm' (L0 ++ l) /\ NoDup (L0 ++ l) /\ (forall c, In c (L0 ++ l) <-> In c L0 \/ reached c) /\ Rooted l /\ Crossing l /\
      exists l', l = l' ++ [start].
  Proof using Hnb Hfew Hoff Hvisit Hvisited VRext dec Hstart.
    intros Hlen HN0 HB0 HC0 Hs0 dm fm V1 V2.
    destruct (discover start [] dm fm L0 V1 HB0 Hstart Hs0) as (news & dm' & E1 & V3 & LN & HN).
    assert (HI : Inv [start] L0 (start :: L0) (news ++ [start]) dm' fm).
    { constructor; auto.
      - constructor; auto.
      - intros c Hc. right; auto.
      - intros c [<-|Hc]; auto.
      - intros c. cbn [In]. split; [|tauto]. intros [<-|[]]. auto.
      - left. apply sk_push; [apply sk_base|]. intros y Hy. apply HN in Hy. split; [tauto|].
        intros [<-|[]]. apply (proj2 Hy). left; auto.
      - intros p x [<-|[]] Hx Hxb. destruct (in_dec dec x (start :: L0)) as [Hi|Hi]; auto. right.
        exists news, []. split; auto. split; [|apply HN; auto].
        intros X. apply HN in X. apply (proj2 X). left; auto.
      - intros c x Hc Hx Hxb. right. eauto.
      - intros c [<-|Hc]; auto. right. exists 0%nat. constructor.
      - apply incl_refl.
      - left; auto. }
    assert (LD : (length (start :: L0) <= length board)%nat).
    { apply NoDup_incl_length; [constructor; auto|]. intros y [<-|Hy]; auto. }
    assert (SZ : (size (start :: L0) (news ++ [start]) <= length board * 9 + 9)%nat).
    { unfold size. rewrite app_length. cbn [length] in *. lia. }
    destruct (run_drains Hlen _ _ _ _ _ _ _ HI (Nat.lt_succ_diag_r _) SZ)
      as (l & dm2 & fm2 & HC & [H0 H0'] & H2 & H3 & H4 & H5 & H6 & H7 & H8 & _).
    exists l, dm2, fm2. split; [|split; [auto|split; [auto|split; [auto|split; [|split; [auto|split; [auto|]]]]]]].
    - destruct (run_next _ _ _ _ _ _ _ HI (Nat.lt_succ_diag_r _))
        as [E0|(n & z & gs1 & D1 & st1 & dm1 & fm1 & Hn & HR & _)];
        [destruct news; discriminate|].
      assert (X1 : dpo_next nb nb_next visit visited (news ++ [start], (dm', fm))
        = Ok (Some z, (st1, (dm1, fm1)))) by (eapply loop_rounds; [exact HR|lia]).
      assert (X2 : dpo_next nb nb_next visit visited ([start], (dm, fm))
        = Ok (Some z, (st1, (dm1, fm1)))).
      { eapply loop_rounds; [eapply R_more; [exact E1|exact HR]|lia]. }
      inversion HC as [it0 Ei El Ea|it0 x it1 l0 it2 Hx HC' Ei El Ea]; subst.
      + destruct news; discriminate.
      + rewrite X1 in Hx. injection Hx as <- <-. econstructor; [exact X2|exact HC'].
    - intros c. split; auto. intros [Hc|(n & Hc)]; [apply in_or_app; auto|].
      induction Hc as [|n b c ln Hb IH HD Hi Hcb]; [apply H4; left; auto|].
      assert (Hbb : In b board).
      { inversion Hb; subst; auto. }
      apply (H6 b c IH); auto. rewrite (Drains_det _ _ _ _ (Hnb b Hbb) HD). auto.
    - destruct (@exists_last _ l) as (l' & c & El).
      { intros ->. rewrite app_nil_r in H4. apply Hs0, H4. left; auto. }
      exists l'. destruct (H7 l' c [] El) as [[-> _]|(p & [] & _)]. exact El.
  Qed.

  Lemma dpo_done : forall ms, dpo_next nb nb_next visit visited ([], ms) = Ok (None, ([], ms)).
  Proof.
    intros [dm fm]. unfold dpo_next. eapply loop_rounds; [apply R_done; reflexivity|]. reflexivity.
  Qed.
End Any.
