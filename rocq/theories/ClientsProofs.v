(** * ClientsProofs: two colours, cycles, paths and post-order on any graph that keeps its
    promises. *)

From Coq Require Import Permutation.
From Verif Require Import Machine Traverse Kruskal Clients Spec7 Spec8 Basics TraverseProofs KruskalProofs
  KruskalRun.
From Coq Require Import ZifyBool ZifyNat.

Fixpoint fold_return {S X R} (f : S -> X -> outcome (S + R)) (l : list X) (s : S)
  : outcome (S + R) :=
  match l with
  | [] => Ok (inl s)
  | x :: l => let! r := f s x in
      match r with inl s' => fold_return f l s' | inr r => Ok (inr r) end
  end.

Lemma for_return_fold : forall It X S R (next : It -> outcome (option X * It)) it l
  (body : S -> X -> outcome (S + R)) s r, Drains next it l -> Z.of_nat (length l) + 1 < 2 ^ 72 ->
  fold_return body l s = Ok r -> for_return next it body s = Ok r.
Proof.
  intros It X S R next it l body s r (it1 & it2 & HC & HN & _) Hlen HF. unfold for_return.
  assert (K : exists n, (n <= length l)%nat /\
    Rounds (fun st : It * S =>
      let! (x, it') := next (fst st) in
      match x with
      | None => Ok (inr (inl (snd st)))
      | Some x =>
          let! r := body (snd st) x in
          Ok (match r with inl s' => inl (it', s') | inr r => inr (inr r) end)
      end) n (it, s) (Ok r)).
  { clear Hlen. revert s r HF. induction HC; intros s r HF.
    - cbn [fold_return] in HF. injection HF as <-. exists 0%nat. split; [auto|]. apply R_done.
      cbn [fst snd]. rewrite HN. reflexivity.
    - cbn [fold_return] in HF. destruct (body s x) as [[s1|r1]|] eqn:Eb; [| |discriminate];
        cbn [bind] in HF.
      + destruct (IHHC HN s1 r HF) as (n & Hn & HR). exists (Datatypes.S n).
        split; [cbn [length]; lia|]. eapply R_more; [|exact HR].
        cbn [fst snd]. rewrite H. cbn [bind fst snd]. rewrite Eb. reflexivity.
      + injection HF as <-. exists 0%nat. split; [lia|]. apply R_done.
        cbn [fst snd]. rewrite H. cbn [bind fst snd]. rewrite Eb. reflexivity. }
  destruct K as (n & Hn & HR). eapply loop_rounds; [exact HR|lia].
Qed.

Section Generic.
  Context {C It VM : Type} (nb : C -> It) (nb_next : C -> It -> outcome (option C * It))
    (visit : VM -> C -> outcome (bool * VM)) (visited : VM -> C -> outcome bool)
    (dec : forall a b : C, {a = b} + {a <> b})
    (board : list C) (nbs : C -> list C) (VR : VM -> list C -> Prop)
    (Hnb : forall c, In c board -> Drains (nb_next c) (nb c) (nbs c))
    (Hdeg : forall c, In c board -> (length (nbs c) <= 8)%nat)
    (Hin : forall c c', In c board -> In c' (nbs c) -> In c' board)
    (Hvisit : forall vm M c, VR vm M -> In c board ->
       exists b vm', visit vm c = Ok (b, vm') /\ (b = true <-> ~ In c M) /\ VR vm' (c :: M))
    (Hvisited : forall vm M c, VR vm M -> In c board ->
       exists b, visited vm c = Ok b /\ (b = true <-> In c M))
    (VRext : forall vm M M', VR vm M -> (forall c, In c M <-> In c M') -> VR vm M')
    (start : C) (Hstart : In start board)
    (Hreach : forall L, In start L -> incl L board ->
       (forall c c', In c L -> In c' (nbs c) -> In c' L) -> forall c, In c board -> In c L).

  Lemma few : forall c, In c board -> Z.of_nat (length (nbs c)) + 1 < 2 ^ 72.
  Proof using Hdeg. clear - Hdeg. intros c Hc. pose proof (Hdeg c Hc). lia. Qed.

  (** ** Two colours *)

  Definition Proper (col : C -> bool) : Prop :=
    forall c c', In c board -> In c' (nbs c) -> col c <> col c'.

  Record BI (K P q : list C) (red blue : VM) (Mr Mb : list C) : Prop := {
    b_red : VR red Mr;
    b_blue : VR blue Mb;
    b_nodup : NoDup (P ++ q);
    b_board : incl (P ++ q) board;
    b_known : forall c, In c (P ++ q) <-> In c Mr \/ In c Mb;
    b_disj : forall c, In c Mr -> In c Mb -> False;
    b_edges : forall c c', In c K -> In c' (nbs c) ->
      (In c Mr /\ In c' Mb) \/ (In c Mb /\ In c' Mr);
    b_start : In start (P ++ q);
    b_forced : forall col, Proper col -> col start = true ->
      (forall c, In c Mr -> col c = true) /\ (forall c, In c Mb -> col c = false) }.

  Lemma improper : forall K P q red blue Mr Mb, BI K P q red blue Mr Mb ->
    forall c c', In c board -> In c' (nbs c) ->
    (In c Mr /\ In c' Mr) \/ (In c Mb /\ In c' Mb) -> ~ exists col, Proper col.
  Proof.
    intros K P q red blue Mr Mb HB c c' Hc Hc' HM (col & HP).
    assert (F : forall col, Proper col -> col start = true -> False).
    { intros f Hf Hs. destruct (b_forced _ _ _ _ _ _ _ HB f Hf Hs) as [F1 F2].
      apply (Hf c c' Hc Hc'). destruct HM as [[H1 H2]|[H1 H2]].
      - rewrite (F1 c H1), (F1 c' H2). auto.
      - rewrite (F2 c H1), (F2 c' H2). auto. }
    destruct (col start) eqn:Es; [exact (F col HP Es)|].
    apply (F (fun x => negb (col x))); [|rewrite Es; auto].
    intros x y Hx Hy E. apply (HP x y Hx Hy). destruct (col x), (col y); auto; discriminate.
  Qed.

  Lemma nodup_snoc : forall (l : list C) x, NoDup l -> ~ In x l -> NoDup (l ++ [x]).
  Proof.
    intros l x H1 H2. apply NoDup_Add with (a := x) (l := l); [|auto].
    rewrite <- (app_nil_r l) at 1. apply Add_app.
  Qed.

  Lemma bip_inner : forall n, In n board -> forall K P, In n P -> forall (r : bool) ns, incl ns (nbs n) ->
    forall q red blue Mr Mb, BI K P q red blue Mr Mb ->
    (if r then In n Mr else In n Mb) ->
    (exists q2 red' blue' Mr' Mb',
       fold_return (bip_neighbour visit visited r (negb r)) ns (q, (red, blue))
         = Ok (inl (q ++ q2, (red', blue'))) /\ BI K P (q ++ q2) red' blue' Mr' Mb' /\
       incl Mr Mr' /\ incl Mb Mb' /\
       forall c, In c ns -> if r then In c Mb' else In c Mr') \/
    (fold_return (bip_neighbour visit visited r (negb r)) ns (q, (red, blue)) = Ok (inr false) /\
     ~ exists col, Proper col).
  Proof using Hin Hvisit Hvisited VRext dec.
    intros n Hn K P HnP r. induction ns as [|x ns IH]; intros Hns q red blue Mr Mb HB HC.
    - left. exists [], red, blue, Mr, Mb. rewrite app_nil_r. split; [reflexivity|].
      split; [exact HB|]. split; [intros y; auto|]. split; [intros y; auto|]. intros c [].
    - assert (Hx : In x (nbs n)) by (apply Hns; left; auto).
      assert (Hxb : In x board) by (eapply Hin; eauto).
      assert (Hns' : incl ns (nbs n)) by (intros y Hy; apply Hns; right; auto).
      destruct (Hvisited red Mr x (b_red _ _ _ _ _ _ _ HB) Hxb) as (xr & E1 & X1).
      destruct (Hvisited blue Mb x (b_blue _ _ _ _ _ _ _ HB) Hxb) as (xb & E2 & X2).
      cbn [fold_return]. unfold bip_neighbour at 1 3. rewrite E1, E2. cbn [bind].
      destruct ((r && xr) || (negb r && xb)) eqn:Ec.
      { right. split; [reflexivity|]. apply (improper _ _ _ _ _ _ _ HB n x Hn Hx).
        destruct r; cbn in Ec; [left|right]; (split; [auto|]); [apply X1|apply X2];
          rewrite ?orb_false_r in Ec; auto. }
      destruct (negb xr && negb xb) eqn:En.
      + assert (xr = false /\ xb = false) as [-> ->] by (destruct xr, xb; auto; discriminate).
        assert (Hxn : ~ In x (P ++ q)).
        { intros Hi. apply (b_known _ _ _ _ _ _ _ HB) in Hi. rewrite <- X1, <- X2 in Hi.
          destruct Hi; discriminate. }
        assert (ND : NoDup (P ++ q ++ [x])).
        { rewrite app_assoc. apply nodup_snoc; auto. exact (b_nodup _ _ _ _ _ _ _ HB). }
        assert (BD : incl (P ++ q ++ [x]) board).
        { rewrite app_assoc. intros y Hy. apply in_app_or in Hy. destruct Hy as [Hy|[<-|[]]]; auto.
          exact (b_board _ _ _ _ _ _ _ HB y Hy). }
        assert (KN : forall c, In c (P ++ q ++ [x]) <-> In c (P ++ q) \/ c = x).
        { intros c. rewrite app_assoc, in_app_iff. cbn [In]. intuition. }
        destruct r; cbn [negb].
        * destruct (Hvisit blue Mb x (b_blue _ _ _ _ _ _ _ HB) Hxb) as (b0 & blue1 & E3 & _ & V3).
          rewrite E3. cbn [bind].
          assert (HB' : BI K P (q ++ [x]) red blue1 Mr (x :: Mb)).
          { constructor; auto.
            - exact (b_red _ _ _ _ _ _ _ HB).
            - intros c. rewrite KN, (b_known _ _ _ _ _ _ _ HB). cbn [In]. intuition.
            - intros c H1 [<-|H2]; [|eapply (b_disj _ _ _ _ _ _ _ HB); eauto].
              apply X1 in H1. discriminate.
            - intros c c' H1 H2. destruct (b_edges _ _ _ _ _ _ _ HB c c' H1 H2) as [[]|[]];
                cbn [In]; auto.
            - apply KN. left. exact (b_start _ _ _ _ _ _ _ HB).
            - intros col Hp Hs. destruct (b_forced _ _ _ _ _ _ _ HB col Hp Hs) as [F1 F2].
              split; auto. intros c [<-|H2]; auto.
              pose proof (Hp n x Hn Hx) as Hd. rewrite (F1 n HC) in Hd. destruct (col x); congruence. }
          destruct (IH Hns' _ _ _ _ _ HB' HC) as [(q2 & r' & b' & M1 & M2 & F1 & F2 & F3 & F4 & F5)|F].
          -- left. exists (x :: q2), r', b', M1, M2. rewrite <- app_assoc in F1, F2.
             cbn [app negb] in F1, F2. split; auto. split; auto. split; auto.
             split; [intros c Hc; apply F4; right; auto|].
             intros c [<-|Hc]; [apply F4; left; auto|auto].
          -- right. exact F.
        * destruct (Hvisit red Mr x (b_red _ _ _ _ _ _ _ HB) Hxb) as (b0 & red1 & E3 & _ & V3).
          rewrite E3. cbn [bind].
          assert (HB' : BI K P (q ++ [x]) red1 blue (x :: Mr) Mb).
          { constructor; auto.
            - exact (b_blue _ _ _ _ _ _ _ HB).
            - intros c. rewrite KN, (b_known _ _ _ _ _ _ _ HB). cbn [In]. intuition.
            - intros c [<-|H1] H2; [|eapply (b_disj _ _ _ _ _ _ _ HB); eauto].
              apply X2 in H2. discriminate.
            - intros c c' H1 H2. destruct (b_edges _ _ _ _ _ _ _ HB c c' H1 H2) as [[]|[]];
                cbn [In]; auto.
            - apply KN. left. exact (b_start _ _ _ _ _ _ _ HB).
            - intros col Hp Hs. destruct (b_forced _ _ _ _ _ _ _ HB col Hp Hs) as [F1 F2].
              split; auto. intros c [<-|H2]; auto.
              pose proof (Hp n x Hn Hx) as Hd. rewrite (F2 n HC) in Hd. destruct (col x); congruence. }
          destruct (IH Hns' _ _ _ _ _ HB' HC) as [(q2 & r' & b' & M1 & M2 & F1 & F2 & F3 & F4 & F5)|F].
          -- left. exists (x :: q2), r', b', M1, M2. rewrite <- app_assoc in F1, F2.
             cbn [app negb] in F1, F2. split; auto. split; auto.
             split; [intros c Hc; apply F3; right; auto|]. split; auto.
             intros c [<-|Hc]; [apply F3; left; auto|auto].
          -- right. exact F.
      + destruct (IH Hns' _ _ _ _ _ HB HC) as [(q2 & r' & b' & M1 & M2 & F1 & F2 & F3 & F4 & F5)|F].
        * left. exists q2, r', b', M1, M2. split; auto. split; auto. split; auto. split; auto.
          intros c [<-|Hc]; [|exact (F5 c Hc)].
          destruct r, xr, xb; cbn in Ec, En; try discriminate;
            [apply F4, X2; reflexivity|apply F3, X1; reflexivity].
        * right. exact F.
  Qed.

  Lemma bip_rounds : forall k L q red blue Mr Mb, BI L L q red blue Mr Mb ->
    (length board - length L < k)%nat ->
    exists n b, (n <= length board)%nat /\
      Rounds (bip_round nb nb_next visit visited) n (q, (red, blue)) (Ok b) /\
      (b = true <-> exists col, Proper col).
  Proof using Hnb Hdeg Hin Hvisit Hvisited VRext dec Hreach Hstart.
    assert (MAIN : forall k L q red blue Mr Mb, BI L L q red blue Mr Mb ->
      (length board - length L < k)%nat ->
      exists n b, (n <= length board - length L)%nat /\
        Rounds (bip_round nb nb_next visit visited) n (q, (red, blue)) (Ok b) /\
        (b = true <-> exists col, Proper col)).
    { induction k; intros L q red blue Mr Mb HB Hk; [lia|]. destruct q as [|n q].
      - exists 0%nat, true. split; [lia|]. split; [apply R_done; reflexivity|].
        split; auto. intros _. destruct HB as [H1 H2 H3 H4 H5 H6 H7 H8 H9].
        rewrite app_nil_r in *.
        assert (ALL : forall c, In c board -> In c L).
        { apply Hreach; auto. intros c c' Hc Hc'. apply H5.
          destruct (H7 c c' Hc Hc') as [[]|[]]; auto. }
        exists (fun c => if in_dec dec c Mr then true else false).
        intros c c' Hc Hc' E. destruct (H7 c c' (ALL c Hc) Hc') as [[K1 K2]|[K1 K2]].
        + destruct (in_dec dec c Mr); [|tauto]. destruct (in_dec dec c' Mr); [|discriminate]. eauto.
        + destruct (in_dec dec c' Mr); [|tauto]. destruct (in_dec dec c Mr); [|discriminate]. eauto.
      - assert (Hn : In n board).
        { apply (b_board _ _ _ _ _ _ _ HB). rewrite in_app_iff. cbn [In]. auto. }
        assert (HA : L ++ n :: q = (L ++ [n]) ++ q) by (rewrite <- app_assoc; reflexivity).
        assert (Hlen : (length (L ++ [n]) <= length board)%nat).
        { apply NoDup_incl_length.
          - pose proof (b_nodup _ _ _ _ _ _ _ HB) as ND. rewrite HA in ND.
            apply NoDup_rev in ND. rewrite rev_app_distr in ND.
            rewrite <- (rev_involutive (L ++ [n])). apply NoDup_rev.
            clear - ND. induction (rev q) as [|y l IH]; cbn [app] in ND; auto.
            inversion ND; auto.
          - intros y Hy. apply (b_board _ _ _ _ _ _ _ HB). rewrite HA. apply in_or_app. auto. }
        rewrite app_length in Hlen. cbn [length] in Hlen.
        destruct (Hvisited red Mr n (b_red _ _ _ _ _ _ _ HB) Hn) as (nr & E1 & X1).
        destruct (Hvisited blue Mb n (b_blue _ _ _ _ _ _ _ HB) Hn) as (nl & E2 & X2).
        assert (nl = negb nr) as ->.
        { assert (HK : In n Mr \/ In n Mb).
          { apply (b_known _ _ _ _ _ _ _ HB). rewrite in_app_iff. cbn [In]. auto. }
          pose proof (b_disj _ _ _ _ _ _ _ HB n) as HD.
          destruct nr, nl; auto; exfalso.
          - apply HD; [apply X1|apply X2]; auto.
          - destruct HK as [H|H]; [apply X1 in H|apply X2 in H]; discriminate. }
        assert (HB1 : BI L (L ++ [n]) q red blue Mr Mb).
        { destruct HB as [H1 H2 H3 H4 H5 H6 H7 H8 H9]. rewrite HA in *. constructor; auto. }
        assert (HC : if nr then In n Mr else In n Mb).
        { destruct nr; [apply X1|apply X2]; auto. }
        destruct (bip_inner n Hn L (L ++ [n]) ltac:(apply in_or_app; right; left; auto) nr (nbs n)
          (fun y Hy => Hy) _ _ _ _ _ HB1 HC)
          as [(q2 & r' & b' & M1 & M2 & F1 & F2 & F3 & F4 & F5)|[F1 F2]].
        + assert (HB2 : BI (L ++ [n]) (L ++ [n]) (q ++ q2) r' b' M1 M2).
          { destruct F2 as [H1 H2 H3 H4 H5 H6 H7 H8 H9]. constructor; auto.
            intros c c' Hc Hc'. apply in_app_or in Hc. destruct Hc as [Hc|[<-|[]]]; auto.
            specialize (F5 c' Hc'). destruct nr; auto. }
          destruct (IHk _ _ _ _ _ _ HB2) as (j & b & J1 & J2 & J3).
          { rewrite app_length. cbn [length]. lia. }
          rewrite app_length in J1. cbn [length] in J1.
          exists (S j), b. split; [lia|]. split; auto. eapply R_more; [|exact J2].
          unfold bip_round. rewrite E1, E2. cbn [bind].
          replace (xorb nr (negb nr)) with true by (destruct nr; auto).
          apply (for_return_fold _ _ _ _ _ _ (nbs n)); auto. apply few; auto.
        + exists 0%nat, false. split; [lia|]. split; [|split; [discriminate|tauto]].
          apply R_done. unfold bip_round. rewrite E1, E2. cbn [bind].
          replace (xorb nr (negb nr)) with true by (destruct nr; auto).
          apply (for_return_fold _ _ _ _ _ _ (nbs n)); auto. apply few; auto. }
    intros k L q red blue Mr Mb HB Hk. destruct (MAIN k L q red blue Mr Mb HB Hk) as (n & b & H1 & H2).
    exists n, b. split; [lia|auto].
  Qed.

  Lemma bipartite_ok : forall fresh, VR fresh [] -> Z.of_nat (length board) < 2 ^ 72 ->
    exists b, is_bipartite_undirected nb nb_next visit visited fresh start = Ok b /\
      (b = true <-> exists col, Proper col).
  Proof using Hnb Hdeg Hin Hvisit Hvisited VRext dec Hreach Hstart.
    intros fresh HV Hlen. unfold is_bipartite_undirected.
    destruct (Hvisit fresh [] start HV Hstart) as (b0 & red & E & _ & HV1). rewrite E. cbn [bind].
    destruct (bip_rounds (S (length board)) [] [start] red fresh [start] []) as (n & b & H1 & H2 & H3).
    - constructor; cbn [app]; auto.
      + constructor; [intros []|constructor].
      + intros x [<-|[]]; auto.
      + intros c. cbn [In]. tauto.
      + intros c c' [].
      + left; auto.
      + intros col Hp Hs. split; [intros c [<-|[]]; auto|intros c []].
    - cbn [length]. lia.
    - exists b. split; auto. eapply loop_rounds; [exact H2|lia].
  Qed.

  (** ** Paths *)

  Lemma path_ok : forall (eqb : C -> C -> bool), (forall a b, eqb a b = true <-> a = b) ->
    forall fresh l, Drains (dfs_next nb nb_next visit visited) (dfs_new fresh start) l ->
    Z.of_nat (length l) + 1 < 2 ^ 72 -> forall to,
    has_path_connecting nb nb_next visit visited eqb fresh start to
      = Ok (if in_dec dec to l then true else false).
  Proof.
    intros eqb Heq fresh l HD Hlen to. unfold has_path_connecting.
    assert (F : fold_return (fun (_ : unit) x => Ok (if eqb x to then inr tt else inl tt)) l tt
      = Ok (if in_dec dec to l then inr tt else inl tt)).
    { clear HD Hlen. induction l as [|x l IH]; [reflexivity|]. cbn [fold_return bind].
      destruct (eqb x to) eqn:Ex.
      - apply Heq in Ex. subst. destruct (in_dec dec to (to :: l)) as [|Hn]; auto.
        exfalso. apply Hn. left; auto.
      - rewrite IH. destruct (in_dec dec to l) as [H|H], (in_dec dec to (x :: l)) as [H'|H']; auto.
        + exfalso. apply H'. right; auto.
        + exfalso. destruct H' as [->|H']; auto. rewrite (proj2 (Heq to to) eq_refl) in Ex.
          discriminate. }
    rewrite (for_return_fold _ _ _ _ _ _ l _ _ _ HD Hlen F). cbn [bind].
    destruct (in_dec dec to l); reflexivity.
  Qed.

  (** ** Post-order *)

  Record PI (L D st : list C) (dm fm : VM) : Prop := {
    p_disc : VR dm D;
    p_fin : VR fm L;
    p_nodup : NoDup L;
    p_dnodup : NoDup D;
    p_sub : incl L D;
    p_dboard : incl D board;
    p_stack : incl st board;
    p_grey : forall c, In c D -> In c L \/ In c st;
    p_closed : forall c c', In c D -> In c' (nbs c) -> In c' D \/ In c' st;
    p_below : forall s1 c s2, st = s1 ++ c :: s2 -> c <> start ->
      exists p s3 s4, s2 = s3 ++ p :: s4 /\ ~ In p (s1 ++ c :: s3) /\ In c (nbs p) /\
        In p D /\ ~ In p L;
    p_order : forall l1 c l2, L = l1 ++ c :: l2 -> c <> start ->
      exists p, In c (nbs p) /\ (In p l2 \/ (In p st /\ ~ In p L));
    p_start : In start D \/ (D = [] /\ st = [start]);
    p_bottom : (st = [] /\ exists L', L = L' ++ [start]) \/
      (exists s, st = s ++ [start] /\ ~ In start s /\ ~ In start L) }.

  Definition size (D st : list C) : nat := (length board - length D) * 9 + length st.

  Lemma push_filter : forall ns D vm, VR vm D -> incl ns board -> forall st,
    exists news, fold_outcome (fun stack succ =>
        let! v := visited vm succ in Ok (if v then stack else succ :: stack)) ns st
      = Ok (news ++ st) /\ (length news <= length ns)%nat /\
      (forall x, In x news <-> In x ns /\ ~ In x D).
  Proof using Hvisited.
    clear - Hvisited. induction ns as [|n ns IH]; intros D vm HV HI st.
    - exists []. repeat split; auto; intros []; auto.
    - destruct (Hvisited vm D n HV (HI n (or_introl eq_refl))) as (b & E & Hb).
      cbn [fold_outcome]. rewrite E. cbn [bind].
      destruct (IH D vm HV ltac:(intros x Hx; apply HI; right; auto) (if b then st else n :: st))
        as (news & F1 & F2 & F3). destruct b.
      + exists news. split; auto. split; [cbn [length]; lia|]. intros x. rewrite F3. cbn [In].
        split; [tauto|]. intros [[<-|H] H2]; auto. exfalso. apply H2, Hb. auto.
      + exists (news ++ [n]). split; [rewrite F1, <- app_assoc; reflexivity|].
        split; [rewrite app_length; cbn [length]; lia|].
        assert (HnD : ~ In n D) by (intros H; apply Hb in H; discriminate).
        intros x. rewrite in_app_iff, F3. cbn [In]. split; [intros [[]|[<-|[]]]; auto|].
        intros [[<-|H] H2]; auto.
  Qed.

  Lemma dpo_run : forall k L D st dm fm, PI L D st dm fm -> (size D st < k)%nat ->
    (exists n dm' fm' D', (n <= size D st)%nat /\
       Rounds (dpo_round nb nb_next visit visited) n (st, (dm, fm))
         (Ok (None, ([], (dm', fm')))) /\ PI L D' [] dm' fm') \/
    (exists n x D' st' dm' fm', (n <= size D st)%nat /\
       Rounds (dpo_round nb nb_next visit visited) n (st, (dm, fm))
         (Ok (Some x, (st', (dm', fm')))) /\ PI (L ++ [x]) D' st' dm' fm' /\
       (size D' st' < size D st)%nat).
  Proof using Hnb Hdeg Hin Hvisit Hvisited VRext dec Hreach Hstart.
    induction k; intros L D st dm fm HI Hk; [lia|].
    pose proof HI as [H1 H2 H3 H4 H5 H6 H7 H8 H9 H10 H11 H13 H12].
    destruct st as [|x st].
    - left. exists 0%nat, dm, fm, D. split; [lia|]. split; auto. apply R_done. reflexivity.
    - assert (Hx : In x board) by (apply H7; left; auto).
      destruct (Hvisit dm D x H1 Hx) as (b & dm1 & E1 & X1 & V1).
      assert (HleD : (length D <= length board)%nat) by (apply NoDup_incl_length; auto).
      destruct b.
      + assert (HxD : ~ In x D) by (apply X1; auto).
        assert (HxL : ~ In x L) by (intros H; apply HxD, H5; auto).
        destruct (push_filter (nbs x) (x :: D) dm1 V1 ltac:(intros y Hy; eapply Hin; eauto) (x :: st))
          as (news & F1 & F2 & F3). pose proof (Hdeg x Hx) as HDx.
        assert (HleD' : (length (x :: D) <= length board)%nat).
        { apply NoDup_incl_length; [constructor; auto|]. intros y [<-|Hy]; auto. }
        cbn [length] in HleD'.
        assert (HI' : PI L (x :: D) (news ++ x :: st) dm1 fm).
        { constructor; auto.
          - constructor; auto.
          - intros y Hy. right. auto.
          - intros y [<-|Hy]; auto.
          - intros y Hy. apply in_app_or in Hy. destruct Hy as [Hy|Hy]; auto.
            apply F3 in Hy. destruct Hy as [Hy _]. eapply Hin; eauto.
          - intros c [<-|Hc]; [right; rewrite in_app_iff; cbn [In]; auto|].
            destruct (H8 c Hc) as [H|H]; auto. right. rewrite in_app_iff. auto.
          - intros c c' [<-|Hc] Hc'.
            + destruct (in_dec dec c' (x :: D)) as [H|H]; auto.
              right. rewrite in_app_iff. left. apply F3. auto.
            + destruct (H9 c c' Hc Hc') as [H|H]; [left; right; auto|].
              right. rewrite in_app_iff. auto.
          - intros s1 c s2 Eq Hc.
            assert (CASES : (exists t, news = s1 ++ c :: t /\ s2 = t ++ x :: st) \/
                            (exists t, s1 = news ++ t /\ x :: st = t ++ c :: s2)).
            { clear - Eq. revert s1 Eq. induction news as [|y news IH]; intros s1 Eq.
              - right. exists s1. auto.
              - destruct s1 as [|z s1]; cbn [app] in Eq; injection Eq as -> Eq.
                + left. exists news. auto.
                + destruct (IH s1 Eq) as [(t & -> & ->)|(t & -> & E)].
                  * left. exists t. auto.
                  * right. exists t. auto. }
            destruct CASES as [(t & -> & ->)|(t & -> & Eq')].
            + exists x, t, st. split; auto. split.
              * intros H. apply F3 in H. destruct H as [_ H]. apply H. left; auto.
              * split; [|split; [left|]; auto]. apply F3. apply in_or_app. right. left; auto.
            + destruct (H10 t c s2 Eq' Hc) as (p & s3 & s4 & P1 & P2 & P3 & P4 & P5).
              exists p, s3, s4. split; auto. split.
              * rewrite <- app_assoc. intros H. apply in_app_or in H. destruct H as [H|H]; auto.
                apply F3 in H. destruct H as [_ H]. apply H. right; auto.
              * split; auto. split; [right|]; auto.
          - intros l1 c l2 Eq Hc. destruct (H11 l1 c l2 Eq Hc) as (p & P1 & P2).
            exists p. split; auto. destruct P2 as [P2|[P2 P3]]; auto. right. split; auto.
            rewrite in_app_iff. auto.
          - left. destruct H13 as [H13|[_ [= -> _]]]; [right|left]; auto.
          - destruct H12 as [[E _]|(s & Es & S1 & S2)]; [discriminate|]. right.
            exists (news ++ s). rewrite Es, <- app_assoc. split; auto. split; auto.
            rewrite in_app_iff. intros [H|H]; auto. apply F3 in H. destruct H as [Ha Hb].
            (* start has been discovered: it is [x] or in [D], or it is the whole stack *)
            destruct s as [|y s]; cbn [app] in Es; injection Es as -> Es.
            + apply Hb. left; auto.
            + apply Hb. right. destruct H13 as [H13|[_ H13]]; auto.
              rewrite Es in H13. destruct s; discriminate. }
        assert (Hsz : (size (x :: D) (news ++ x :: st) < size D (x :: st))%nat).
        { unfold size. rewrite app_length. cbn [length]. lia. }
        assert (STEP : dpo_round nb nb_next visit visited (x :: st, (dm, fm)) =
          Ok (inl (news ++ x :: st, (dm1, fm)))).
        { unfold dpo_round. rewrite E1. cbn [bind].
          rewrite (for_each_fold _ _ _ _ _ (nbs x) _ (x :: st) (news ++ x :: st)
            (Hnb x Hx) (few x Hx) F1). reflexivity. }
        destruct (IHk _ _ _ _ _ HI' ltac:(lia))
          as [(n & dm' & fm' & D' & N1 & N2 & N3)|(n & z & D' & st' & dm' & fm' & N1 & N2 & N3 & N4)].
        * left. exists (S n), dm', fm', D'. split; [lia|]. split; auto. eapply R_more; eauto.
        * right. exists (S n), z, D', st', dm', fm'. split; [lia|].
          split; [eapply R_more; eauto|]. split; auto. lia.
      + assert (HxD : In x D).
        { destruct (in_dec dec x D) as [H|H]; auto. apply X1 in H. discriminate. }
        assert (V1' : VR dm1 D).
        { eapply VRext; [exact V1|]. intros c. cbn [In]. split; [intros [->|H]; auto|auto]. }
        destruct (Hvisit fm L x H2 Hx) as (b & fm1 & E2 & X2 & V2).
        assert (Hsz : (size D st < size D (x :: st))%nat) by (unfold size; cbn [length]; lia).
        assert (BELOW : forall s1 c s2, st = s1 ++ c :: s2 -> c <> start ->
          exists p s3 s4, s2 = s3 ++ p :: s4 /\ ~ In p (s1 ++ c :: s3) /\ In c (nbs p) /\
            In p D /\ ~ In p L /\ p <> x).
        { intros s1 c s2 Eq Hc. destruct (H10 (x :: s1) c s2) as (p & s3 & s4 & P1 & P2 & P3 & P4 & P5).
          - rewrite Eq. reflexivity.
          - auto.
          - exists p, s3, s4. cbn [app In] in P2. repeat split; auto. }
        destruct b.
        * assert (HxL : ~ In x L) by (apply X2; auto).
          right. exists 0%nat, x, D, st, dm1, fm1. split; [lia|].
          split; [apply R_done; unfold dpo_round; rewrite E1; cbn [bind]; rewrite E2; reflexivity|].
          split; [|auto].
          assert (HL : forall c, In c (L ++ [x]) <-> In c L \/ c = x).
          { intros c. rewrite in_app_iff. cbn [In]. intuition. }
          constructor; auto.
          -- eapply VRext; [exact V2|]. intros c. rewrite HL. cbn [In]. intuition.
          -- apply nodup_snoc; auto.
          -- intros c Hc. apply HL in Hc. destruct Hc as [Hc| ->]; auto.
          -- intros c Hc. apply H7. right; auto.
          -- intros c Hc. rewrite HL. destruct (H8 c Hc) as [H|[H|H]]; auto.
          -- intros c c' Hc Hc'. destruct (H9 c c' Hc Hc') as [H|[<-|H]]; auto.
          -- intros s1 c s2 Eq Hc.
             destruct (BELOW s1 c s2 Eq Hc) as (p & s3 & s4 & P1 & P2 & P3 & P4 & P5 & P6).
             exists p, s3, s4. repeat split; auto. rewrite HL. intros [H|H]; auto.
          -- intros l1 c l2 Eq Hc.
             destruct (list_rev_case _ l2) as [->|(l3 & y & ->)].
             ++ apply app_inj_tail in Eq. destruct Eq as [<- <-].
                destruct (H10 [] x st eq_refl Hc) as (p & s3 & s4 & P1 & P2 & P3 & P4 & P5).
                exists p. split; auto. right. split.
                ** rewrite P1. apply in_or_app. right. left; auto.
                ** rewrite HL. intros [H|H]; auto. apply P2. left; auto.
             ++ rewrite app_comm_cons, app_assoc in Eq. apply app_inj_tail in Eq.
                destruct Eq as [Eq <-]. destruct (H11 l1 c l3 Eq Hc) as (p & P1 & P2).
                exists p. split; auto. rewrite in_app_iff. cbn [In]. rewrite HL.
                destruct P2 as [P2|[[P2|P2] P3]]; auto.
                destruct (dec p x) as [->|Hpx]; auto. right. split; auto. intros [H|H]; auto.
          -- destruct H13 as [H13|[-> _]]; [left; auto|destruct HxD].
          -- destruct H12 as [[E _]|(s & Es & S1 & S2)]; [discriminate|].
             destruct s as [|y s]; cbn [app] in Es; injection Es as -> Es.
             ++ left. split; auto. exists L. auto.
             ++ right. exists s. split; auto. split; [intros H; apply S1; right; auto|].
                rewrite HL. intros [H|H]; auto. apply S1. left; auto.
        * assert (HxL : In x L).
          { destruct (in_dec dec x L) as [H|H]; auto. apply X2 in H. discriminate. }
          assert (HI' : PI L D st dm1 fm1).
          { constructor; auto.
            - eapply VRext; [exact V2|]. intros c. cbn [In]. split; [intros [->|H]; auto|auto].
            - intros c Hc. apply H7. right; auto.
            - intros c Hc. destruct (H8 c Hc) as [H|[<-|H]]; auto.
            - intros c c' Hc Hc'. destruct (H9 c c' Hc Hc') as [H|[<-|H]]; auto.
            - intros s1 c s2 Eq Hc.
              destruct (BELOW s1 c s2 Eq Hc) as (p & s3 & s4 & P1 & P2 & P3 & P4 & P5 & P6).
              exists p, s3, s4. repeat split; auto.
            - intros l1 c l2 Eq Hc. destruct (H11 l1 c l2 Eq Hc) as (p & P1 & P2).
              exists p. split; auto. destruct P2 as [P2|[[<-|P2] P3]]; auto. contradiction.
            - destruct H13 as [H13|[-> _]]; [left; auto|destruct HxD].
            - destruct H12 as [[E _]|(s & Es & S1 & S2)]; [discriminate|].
              destruct s as [|y s]; cbn [app] in Es; injection Es as -> Es; [contradiction|].
              right. exists s. split; auto. split; auto. intros H; apply S1; right; auto. }
          assert (STEP : dpo_round nb nb_next visit visited (x :: st, (dm, fm)) =
            Ok (inl (st, (dm1, fm1)))).
          { unfold dpo_round. rewrite E1. cbn [bind]. rewrite E2. reflexivity. }
          destruct (IHk _ _ _ _ _ HI' ltac:(lia))
            as [(n & dm' & fm' & D' & N1 & N2 & N3)|(n & z & D' & st' & dm' & fm' & N1 & N2 & N3 & N4)].
          -- left. exists (S n), dm', fm', D'. split; [lia|]. split; auto. eapply R_more; eauto.
          -- right. exists (S n), z, D', st', dm', fm'. split; [lia|].
             split; [eapply R_more; eauto|]. split; auto. lia.
  Qed.

  Lemma dpo_drains : forall k L D st dm fm, PI L D st dm fm -> (size D st < k)%nat ->
    Z.of_nat (size D st) < 2 ^ 72 ->
    exists l D' dm' fm', Drains (dpo_next nb nb_next visit visited) (st, (dm, fm)) l /\
      PI (L ++ l) D' [] dm' fm'.
  Proof using Hnb Hdeg Hin Hvisit Hvisited VRext dec Hreach Hstart.
    induction k; intros L D st dm fm HI Hk Hs; [lia|].
    destruct (dpo_run _ _ _ _ _ _ HI (Nat.lt_succ_diag_r _))
      as [(n & dm' & fm' & D' & N1 & N2 & N3)|(n & z & D' & st' & dm' & fm' & N1 & N2 & N3 & N4)].
    - exists [], D', dm', fm'. rewrite app_nil_r. split; auto.
      exists (st, (dm, fm)), ([], (dm', fm')). split; [constructor|]. unfold dpo_next.
      split; [eapply loop_rounds; [exact N2|lia]|].
      eapply loop_rounds with (n := 0%nat); [apply R_done; reflexivity|lia].
    - destruct (IHk _ _ _ _ _ N3 ltac:(lia) ltac:(lia)) as (l & D2 & dm2 & fm2 & HD & HP).
      exists (z :: l), D2, dm2, fm2. rewrite <- app_assoc in HP. cbn [app] in HP. split; auto.
      eapply Drains_cons; [|exact HD]. unfold dpo_next. eapply loop_rounds; [exact N2|lia].
  Qed.

  Lemma dpo_all : forall fresh, VR fresh [] -> Z.of_nat (length board) <= 2 ^ 63 ->
    exists l, Drains (dpo_next nb nb_next visit visited) (dpo_new fresh start) l /\
      NoDup l /\ (forall c, In c l <-> In c board) /\
      (exists l', l = l' ++ [start]) /\
      forall l1 c l2, l = l1 ++ c :: l2 -> c <> start -> exists p, In c (nbs p) /\ In p l2.
  Proof using Hnb Hdeg Hin Hvisit Hvisited VRext dec Hreach Hstart.
    intros fresh HV Hlen.
    assert (HI : PI [] [] [start] fresh fresh).
    { constructor.
      - exact HV.
      - exact HV.
      - constructor.
      - constructor.
      - intros x [].
      - intros x [].
      - intros x [<-|[]]; auto.
      - intros c [].
      - intros c c' [].
      - intros s1 c s2 Eq Hc. destruct s1 as [|y [|]]; cbn [app] in Eq; try discriminate.
        injection Eq as -> _. congruence.
      - intros l1 c l2 Eq. destruct l1; discriminate.
      - right; auto.
      - right. exists []. repeat split; auto; intros []. }
    destruct (dpo_drains _ _ _ _ _ _ HI (Nat.lt_succ_diag_r _)) as (l & D & dm & fm & HD & HP).
    { unfold size. cbn [length]. lia. }
    exists l. split; [exact HD|]. cbn [app] in HP. destruct HP as [H1 H2 H3 H4 H5 H6 H7 H8 H9 H10 H11 H13 H12].
    assert (EQ : forall c, In c D -> In c l) by (intros c Hc; destruct (H8 c Hc) as [|[]]; auto).
    assert (ST : exists l', l = l' ++ [start]).
    { destruct H12 as [[_ H]|(s & Es & _)]; auto. destruct s; discriminate. }
    split; auto. split.
    - intros c. split; [intros H; apply H6, H5; auto|]. apply Hreach.
      + destruct ST as (l' & ->). apply in_or_app. right; left; auto.
      + intros y Hy. apply H6, H5; auto.
      + intros x y Hx Hy. apply EQ. destruct (H9 x y (H5 x Hx) Hy) as [|[]]; auto.
    - split; auto. intros l1 c l2 Eq Hc. destruct (H11 l1 c l2 Eq Hc) as (p & P1 & [P2|[[] _]]); eauto.
  Qed.
End Generic.

(** ** Cycles *)

Section Cycles.
  Context {C Ed RIt T : Type} (dec : forall a b : C, {a = b} + {a <> b})
    (U : UFOps T) (UOK : UFOK U)
    (bound : outcome Z) (to_index : C -> outcome Z)
    (refs : RIt) (refs_next : RIt -> outcome (option Ed * RIt))
    (source target : Ed -> outcome C).
  Context (nodes : list C) (l : list Ed) (src tgt : Ed -> C)
    (ND : NoDup nodes) (HB : bound = Ok (Z.of_nat (length nodes)))
    (HI : forall i c, nth_error nodes i = Some c -> to_index c = Ok (Z.of_nat i))
    (HR : Drains refs_next refs l) (HL : Z.of_nat (length l) + 1 < 2 ^ 72)
    (HS : forall e, In e l -> source e = Ok (src e)) (HT : forall e, In e l -> target e = Ok (tgt e))
    (HE : forall e, In e l -> In (src e) nodes /\ In (tgt e) nodes).

  Notation n := (Z.of_nat (length nodes)).
  Notation see := (fun e => (src e, tgt e)).

  Notation idx := (KruskalRun.idx to_index).
  Notation idx2 := (KruskalRun.idx2 to_index).

  Lemma place : forall c, In c nodes -> to_index c = Ok (idx c) /\ 0 <= idx c < n /\
    nth_error nodes (Z.to_nat (idx c)) = Some c.
  Proof using HI.
    clear - HI. intros c Hc. apply In_nth_error in Hc. destruct Hc as (i & Hi).
    pose proof (HI i c Hi) as E.
    assert (i < length nodes)%nat by (apply nth_error_Some; congruence).
    unfold KruskalRun.idx. rewrite E. split; auto. split; [lia|]. rewrite Nat2Z.id. auto.
  Qed.

  Lemma linked_place : forall (es : list (C * C)) a b,
    (forall x y, In (x, y) es -> In x nodes /\ In y nodes) -> In a nodes -> In b nodes ->
    Linked (map idx2 es) (idx a) (idx b) <-> Linked es a b.
  Proof using HI.
    intros es a b HX Ha Hb. split; [|apply linked_map].
    intros HLK. apply (linked_map _ _ (fun i => nth (Z.to_nat i) nodes a)) in HLK.
    assert (G : forall c, In c nodes -> nth (Z.to_nat (idx c)) nodes a = c).
    { intros c Hc. apply nth_error_nth. apply (place c Hc). }
    rewrite !G, map_map in HLK by auto. revert HLK. apply linked_mono.
    intros [x y] Hxy. apply in_map_iff in Hxy. destruct Hxy as ([x' y'] & E & Hi).
    unfold KruskalRun.idx2 in E. cbn [fst snd] in E. destruct (HX x' y' Hi) as [H1 H2].
    rewrite (G x' H1), (G y' H2) in E. congruence.
  Qed.

  Lemma cyclic_ok :
    exists b, is_cyclic_undirected U bound to_index refs refs_next source target = Ok b /\
      (b = false <-> Forest (map see l)).
  Proof.
    destruct UOK as (Rep & U1 & U2 & U3). unfold is_cyclic_undirected. rewrite HB. cbn [bind].
    set (body := fun t e =>
        let! a := source e in
        let! b := target e in
        let! i := to_index a in
        let! j := to_index b in
        let! (new, t) := uf_union U t i j in
        Ok (if (new : bool) then inl t else inr tt)).
    assert (FOLD : forall l1 es t, (forall e, In e l1 -> In e l) ->
      (forall x y, In (x, y) es -> In x nodes /\ In y nodes) ->
      Rep t n (map idx2 es) ->
      exists r, fold_return body l1 t = Ok r /\
        ((exists t', r = inl t') <->
         forall k1 a b k2, map see l1 = k1 ++ (a, b) :: k2 -> ~ Linked (rev k1 ++ es) a b)).
    { induction l1 as [|e l1 IH]; intros es t Hl Hes HRep.
      - exists (inl t). split; auto. split; [|eauto]. intros _ k1 a b k2 Eq. destruct k1; discriminate.
      - cbn [fold_return]. unfold body at 1. rewrite HS, HT by (apply Hl; left; auto). cbn [bind].
        destruct (HE e ltac:(apply Hl; left; auto)) as [Ha Hb].
        destruct (place _ Ha) as (I1 & I2 & _).
        destruct (place _ Hb) as (J1 & J2 & _).
        rewrite I1, J1. cbn [bind].
        destruct (U2 t n (map idx2 es) (idx (src e)) (idx (tgt e)) HRep I2 J2)
          as (x & t' & E1 & E2 & R').
        rewrite E1. cbn [bind].
        rewrite (linked_place es (src e) (tgt e) Hes Ha Hb) in E2.
        destruct x.
        + destruct (IH ((src e, tgt e) :: es) t') as (r & F1 & F2).
          { intros; apply Hl; right; auto. }
          { intros x y [[= <- <-]|H]; auto. }
          { exact R'. }
          exists r. split; auto. rewrite F2. cbn [map]. split.
          * intros HF k1 a b k2 Eq. destruct k1 as [|k k1]; cbn [app] in Eq.
            -- injection Eq as <- <- _. cbn [rev app]. apply E2. auto.
            -- injection Eq as <- Eq. cbn [rev]. rewrite <- app_assoc. cbn [app].
               apply (HF k1 a b k2 Eq).
          * intros HF k1 a b k2 Eq. specialize (HF ((src e, tgt e) :: k1) a b k2).
            cbn [rev app] in HF. rewrite <- app_assoc in HF. cbn [app] in HF. apply HF.
            rewrite Eq. reflexivity.
        + exists (inr tt). split; auto. split; [intros (t0 & H0); discriminate|].
          intros HF. exfalso. specialize (HF [] (src e) (tgt e) (map see l1) eq_refl).
          cbn [rev app] in HF. apply E2 in HF. discriminate. }
    destruct (FOLD l [] (uf_new U n)) as (r & F1 & F2); auto; [intros x y []|apply U1; lia|].
    rewrite (for_return_fold _ _ _ _ _ _ l _ _ _ HR HL F1). cbn [bind].
    exists (match r with inl _ => false | inr _ => true end). split; auto.
    assert (K : (forall k1 a b k2, map see l = k1 ++ (a, b) :: k2 -> ~ Linked (rev k1 ++ []) a b) <->
      Forest (map see l)).
    { unfold Forest. split; intros HF k1 a b k2 Eq HLK; apply (HF k1 a b k2 Eq).
      - rewrite app_nil_r. revert HLK. apply linked_mono. intros x Hx. apply in_rev.
        rewrite rev_involutive. auto.
      - rewrite app_nil_r in HLK. revert HLK. apply linked_mono. intros x Hx. apply in_rev. auto. }
    rewrite <- K, <- F2. destruct r; split; eauto; try discriminate. intros (t' & H); discriminate.
  Qed.

  (** As many edges as a forest has, or more. *)
  Lemma forest_ncl : forall es, (forall a b, In (a, b) es -> In a nodes /\ In b nodes) ->
    (Forest es <-> (length es + ncl dec nodes es = length nodes)%nat) /\
    (length nodes <= length es + ncl dec nodes es)%nat.
  Proof using ND.
    clear - ND dec. induction es as [|[a b] es IH] using rev_ind; intros HE.
    - rewrite ncl_nil by auto. cbn [length]. split; [|lia]. split; [auto|].
      intros _ l1 a b l2 Eq. destruct l1; discriminate.
    - destruct IH as [IH1 IH2]; [intros x y H; apply HE, in_or_app; auto|].
      destruct (HE a b) as [Ha Hb]; [apply in_or_app; right; left; auto|].
      rewrite app_length. cbn [length].
      assert (EX : ncl dec nodes (es ++ [(a, b)]) = ncl dec nodes ((a, b) :: es)).
      { apply ncl_ext. intros x y. split; apply linked_mono; intros e He;
          rewrite ?in_app_iff in *; cbn [In] in *; tauto. }
      rewrite EX.
      assert (FE : Forest (es ++ [(a, b)]) <-> Forest es /\ ~ Linked es a b).
      { split.
        - intros HF. split; [|apply (HF es a b []); auto].
          intros l1 x y l2 Eq. apply (HF l1 x y (l2 ++ [(a, b)])). rewrite Eq, <- app_assoc. auto.
        - intros [HF HLK] l1 x y l2 Eq. destruct (list_rev_case _ l2) as [->|(l3 & z & ->)].
          + apply app_inj_tail in Eq. destruct Eq as [<- [= <- <-]]. auto.
          + rewrite app_comm_cons, app_assoc in Eq. apply app_inj_tail in Eq.
            destruct Eq as [Eq _]. apply (HF l1 x y l3 Eq). }
      rewrite FE. destruct (linked_dec dec es a b) as [HLK|HLK].
      + rewrite (ncl_same dec nodes es a b HLK). split; [|lia]. split; [tauto|lia].
      + pose proof (ncl_less dec nodes es a b HLK Ha Hb) as HN. split; [|lia].
        rewrite IH1. split; [intros [H _]; lia|]. intros H. split; auto. lia.
  Qed.

  Lemma cyclic_connected : (forall a b, In a nodes -> In b nodes -> Linked (map see l) a b) ->
    nodes <> [] ->
    is_cyclic_undirected U bound to_index refs refs_next source target =
    Ok (Nat.leb (length nodes) (length l)).
  Proof.
    intros HC HNE. destruct cyclic_ok as (b & E & Hb). rewrite E. f_equal.
    destruct (forest_ncl (map see l)) as [F1 F2].
    { intros x y Hi. apply in_map_iff in Hi. destruct Hi as (e & [= <- <-] & Hi). auto. }
    rewrite (ncl_one dec nodes _ HC), map_length in F1, F2.
    destruct nodes as [|c rest] eqn:En; [congruence|]. cbn [length] in *.
    destruct b.
    - symmetry. apply Nat.leb_le.
      destruct (Nat.le_gt_cases (S (length rest)) (length l)) as [|Hlt]; auto.
      assert (true = false) by (apply Hb, F1; lia). discriminate.
    - symmetry. apply Nat.leb_gt. pose proof (proj1 F1 (proj1 Hb eq_refl)). lia.
  Qed.
End Cycles.
