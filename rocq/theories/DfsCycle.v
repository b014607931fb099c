(** * DfsCycle: what a depth first search tells about cycles. *)

From Verif Require Import Machine Traverse Clients Basics TraverseProofs ClientsProofs PostAny
  DfsEvents Spec16 DfsProofs.
From Coq Require Import ZifyBool ZifyNat Permutation.

Section Events.
  Context {C : Type} (nbs : C -> list C) (nodes starts : list C).
  Notation ev := (DfsEvent C).

  Definition Valid (tr : list ev) : Prop :=
    forall pre e post, tr = pre ++ e :: post -> Proper nbs starts pre e.

  Lemma valid_snoc : forall tr e, Valid (tr ++ [e]) -> Valid tr /\ Proper nbs starts tr e.
  Proof.
    intros tr e H. split.
    - intros pre x post ->. apply (H pre x (post ++ [e])). rewrite <- app_assoc. reflexivity.
    - apply (H tr e []). reflexivity.
  Qed.

  Lemma valid_app : forall t1 t2, Valid (t1 ++ t2) -> Valid t1.
  Proof.
    intros t1 t2 H pre x post ->. apply (H pre x (post ++ t2)). rewrite <- app_assoc. reflexivity.
  Qed.

  (** Each open node leads to the one above it. *)
  Inductive Linked : list C -> Prop :=
  | linked_nil : Linked []
  | linked_one c : Linked [c]
  | linked_more a b l : In a (nbs b) -> Linked (b :: l) -> Linked (a :: b :: l).

  Lemma linked_tl : forall l, Linked l -> Linked (tl l).
  Proof. intros l H. inversion H; subst; cbn [tl]; auto; constructor. Qed.

  Lemma open_linked : forall tr, Valid tr -> Linked (open_after [] tr).
  Proof.
    induction tr as [|e tr IH] using rev_ind; intros H; [constructor|].
    apply valid_snoc in H as [H HP]. specialize (IH H). rewrite open_app.
    destruct e; cbn [open_after]; auto; [|apply linked_tl; auto].
    cbn [Proper] in HP. destruct HP as (_ & [[-> _]|(pre' & p & ->)]); [constructor|].
    apply valid_snoc in H as [H HP]. cbn [Proper] in HP. destruct HP as (Hh & Hb & _).
    rewrite open_app in *. cbn [open_after] in *.
    destruct (open_after [] pre') as [|a l]; [discriminate|]. injection Hh as ->.
    constructor; auto.
  Qed.

  Lemma linked_leads : forall l a b, Linked (a :: l) -> incl (a :: l) nodes -> In b l -> Leads nbs nodes (nbs b) a.
  Proof.
    induction l as [|x l IH]; intros a b HL HI Hb; [destruct Hb|].
    assert (HI' : incl (x :: l) nodes) by (intros y Hy; apply HI; right; auto).
    inversion HL; subst. destruct Hb as [<-|Hb].
    - apply leads_start; auto. apply HI. left. auto.
    - eapply leads_step; [apply (IH x b); eauto|auto|apply HI; left; auto].
  Qed.

  (** The open nodes are in the order of their discovery, the last on top. *)
  Inductive Sub : list C -> list C -> Prop :=
  | sub_nil : Sub [] []
  | sub_skip x l l' : Sub l l' -> Sub l (x :: l')
  | sub_keep x l l' : Sub l l' -> Sub (x :: l) (x :: l').

  Lemma sub_tl : forall l l', Sub l l' -> Sub (tl l) l'.
  Proof.
    induction 1; cbn [tl]; [constructor|constructor; auto|]. apply sub_skip. auto.
  Qed.

  Lemma sub_in : forall l l' x, Sub l l' -> In x l -> In x l'.
  Proof. clear. induction 1; cbn [In]; tauto. Qed.

  Lemma open_sub : forall tr, Sub (open_after [] tr) (rev (discovered tr)).
  Proof.
    induction tr as [|e tr IH] using rev_ind; [constructor|].
    rewrite open_app, discovered_app, rev_app_distr.
    destruct e; cbn [open_after discovered rev app]; auto.
    - apply sub_keep. auto.
    - apply sub_tl. auto.
  Qed.

  Lemma sub_split : forall l l' a, Sub (a :: l) l' -> exists l1 l2, l' = l1 ++ a :: l2 /\ Sub l l2.
  Proof.
    intros l l' a. induction l' as [|y l' IH]; intros H; inversion H; subst.
    - destruct (IH H2) as (l1 & l2 & -> & HS). exists (y :: l1), l2. auto.
    - exists [], l'. auto.
  Qed.

  Lemma disc_nodup : forall tr, Valid tr -> NoDup (discovered tr).
  Proof.
    induction tr as [|e tr IH] using rev_ind; intros H; [constructor|].
    apply valid_snoc in H as [H HP]. rewrite discovered_app.
    destruct e; cbn [discovered]; rewrite ?app_nil_r; auto.
    apply snoc_nodup; auto. apply HP.
  Qed.

  Lemma fin_nodup : forall tr, Valid tr -> NoDup (finished tr).
  Proof.
    induction tr as [|e tr IH] using rev_ind; intros H; [constructor|].
    apply valid_snoc in H as [H HP]. rewrite finished_app.
    destruct e; cbn [finished]; rewrite ?app_nil_r; auto.
    apply snoc_nodup; auto. apply HP.
  Qed.

  (** A discovered node is open or finished. *)
  Lemma open_or_fin : forall tr, Valid tr -> forall c,
    In c (discovered tr) -> In c (open_after [] tr) \/ In c (finished tr).
  Proof.
    induction tr as [|e tr IH] using rev_ind; intros H c Hc; [destruct Hc|].
    apply valid_snoc in H as [H HP]. specialize (IH H c).
    rewrite discovered_app in Hc. rewrite open_app, finished_app.
    destruct e; cbn [discovered open_after finished] in *; rewrite ?app_nil_r in *; auto.
    - apply in_app_or in Hc as [Hc|[<-|[]]]; cbn [In]; tauto.
    - destruct HP as (Hh & _). destruct (open_after [] tr) as [|a l]; [discriminate|].
      injection Hh as ->. cbn [tl]. rewrite in_app_iff. cbn [In] in *. tauto.
  Qed.

  Lemma from_in : forall a es l (b : C), From a es l -> In b l -> In (a, b) es.
  Proof. clear. induction 1; cbn [In]; [tauto| |]; intuition congruence. Qed.

  Lemma seen_event : forall (tr : list ev) a b, In (a, b) (edges_seen tr) -> exists pre e post,
    tr = pre ++ e :: post /\ (e = TreeEdge a b \/ e = BackEdge a b \/ e = CrossForwardEdge a b).
  Proof.
    induction tr as [|e tr IH]; intros a b H; [destruct H|].
    assert (K : In (a, b) (edges_seen tr) -> exists pre x post, e :: tr = pre ++ x :: post /\
      (x = TreeEdge a b \/ x = BackEdge a b \/ x = CrossForwardEdge a b)).
    { intros Hs. destruct (IH _ _ Hs) as (pre & x & post & -> & Hx). exists (e :: pre), x, post. auto. }
    destruct e; cbn [edges_seen] in H; auto; destruct H as [[= <- <-]|H]; auto;
      (eexists [], _, tr; split; [reflexivity|auto]).
  Qed.

  Lemma finished_split : forall (tr : list ev) c, In c (finished tr) ->
    exists pre t post, tr = pre ++ Finish c t :: post.
  Proof.
    induction tr as [|e tr IH]; intros c H; [destruct H|].
    assert (K : In c (finished tr) -> exists pre t post, e :: tr = pre ++ Finish c t :: post).
    { intros Hs. destruct (IH _ Hs) as (pre & t & post & ->). exists (e :: pre), t, post. auto. }
    destruct e; cbn [finished] in H; auto. destruct H as [<-|H]; auto.
    exists [], time, tr. auto.
  Qed.

  (** Without a back edge, a node is finished after all its neighbours. *)
  Lemma after_neighbours : forall tr, Valid tr ->
    (forall pre a b post, tr = pre ++ TreeEdge a b :: post -> In b nodes ->
       exists t post', post = Discover b t :: post') ->
    (forall pre a b post, tr <> pre ++ BackEdge a b :: post) ->
    forall a b, In a (finished tr) -> In b (nbs a) -> In b nodes ->
    exists f1 f2, finished tr = f1 ++ a :: f2 /\ In b f1.
  Proof.
    intros tr HV Hen Hno a b Ha Hb Hbn.
    destruct (finished_split _ _ Ha) as (pre & t & post & E).
    pose proof (HV _ _ _ E) as (Hh & Hna & HF).
    exists (finished pre), (finished post). split; [rewrite E, finished_app; reflexivity|].
    assert (HVp : Valid pre) by (apply valid_app with (t2 := Finish a t :: post); rewrite <- E; auto).
    destruct (seen_event _ _ _ (from_in _ _ _ _ HF Hb)) as (p & e & q & Ep & [-> |[-> | ->]]).
    - (* tree *)
      pose proof (HVp _ _ _ Ep) as (Hha & _ & Hnb). subst pre.
      destruct (Hen p a b (q ++ Finish a t :: post)) as (t' & q' & Eq).
      { rewrite E, <- app_assoc. reflexivity. }
      { auto. }
      destruct q as [|x q]; [discriminate|]. injection Eq as -> _.
      destruct (open_or_fin _ HVp b) as [Ho|Hf]; auto.
      { rewrite discovered_app. apply in_or_app. right. left. reflexivity. }
      exfalso.
      pose proof (open_sub (p ++ TreeEdge a b :: Discover b t' :: q)) as HS.
      destruct (open_after [] (p ++ TreeEdge a b :: Discover b t' :: q)) as [|a' l]; [discriminate|].
      injection Hh as ->.
      assert (Had : In a (discovered p)).
      { pose proof (open_sub p) as HSp. apply in_rev. eapply sub_in; [exact HSp|].
        destruct (open_after [] p); [discriminate|]. injection Hha as ->. left. auto. }
      pose proof (disc_nodup _ HVp) as ND.
      destruct Ho as [->|Ho]; [auto|].
      destruct (sub_split _ _ _ HS) as (l1 & l2 & El & HS2).
      apply sub_in with (x := b) in HS2; auto.
      assert (El' : discovered (p ++ TreeEdge a b :: Discover b t' :: q) = rev l2 ++ a :: rev l1).
      { rewrite <- (rev_involutive (discovered _)), El, rev_app_distr. cbn [rev]. rewrite <- app_assoc.
        reflexivity. }
      rewrite discovered_app in El', ND. cbn [discovered] in El', ND.
      (* a is in the first part, b not *)
      apply in_split in Had as (d1 & d2 & Ed). rewrite Ed, <- app_assoc in El', ND.
      cbn [app] in El', ND.
      assert (Hd : d1 = rev l2).
      { clear - El' ND. revert El' ND. generalize (rev l2) as r2. generalize (rev l1) as r1.
        generalize (d2 ++ b :: discovered q) as d3.
        induction d1 as [|y d1 IH]; intros d3 r1 r2 El ND; destruct r2 as [|z r2]; cbn [app] in *; auto.
        - injection El as -> ->. inversion ND; subst. exfalso. apply H1. apply in_or_app. right. left. auto.
        - injection El as -> <-. inversion ND; subst. exfalso. apply H1. apply in_or_app. right. left. auto.
        - injection El as -> El. f_equal. inversion ND; subst. eapply IH; eauto. }
      apply Hnb. rewrite Ed. apply in_or_app. left. rewrite Hd. apply -> in_rev. auto.
    - (* back *)
      exfalso. apply (Hno p a b (q ++ Finish a t :: post)). rewrite E, Ep, <- app_assoc. reflexivity.
    - (* cross *)
      pose proof (HVp _ _ _ Ep) as (_ & _ & Hf). rewrite Ep, finished_app. apply in_or_app. auto.
  Qed.

  Lemma nodup_split : forall (x : C) a b a' b', NoDup (a ++ x :: b) -> a ++ x :: b = a' ++ x :: b' -> a = a'.
  Proof.
    intros x. induction a as [|y a IH]; intros b a' b' ND E; destruct a' as [|z a']; cbn [app] in *; auto.
    - injection E as -> ->. inversion ND; subst. exfalso. apply H1. apply in_or_app. right. left. auto.
    - injection E as -> <-. inversion ND; subst. exfalso. apply H1. apply in_or_app. right. left. auto.
    - injection E as -> E. f_equal. inversion ND; subst. eapply IH; eauto.
  Qed.

  (** A back edge closes a cycle, and there is one whenever there is a cycle. *)
  Theorem back_edges : forall tr, DepthFirst nbs nodes starts tr ->
    ((exists pre a b post, tr = pre ++ BackEdge a b :: post) <->
     exists c, Leads nbs nodes starts c /\ Leads nbs nodes (nbs c) c).
  Proof.
    intros tr D0. destruct D0 as [df_proper0 df_enters0 df_found0 df_finished0 df_edges0 df_times0]. pose proof (df_proper0 : Valid tr) as HV. split.
    - intros (pre & a & b & post & E). pose proof (HV _ _ _ E) as (Hh & Hb & Ho).
      assert (HVp : Valid pre) by (apply valid_app with (t2 := BackEdge a b :: post); rewrite <- E; auto).
      pose proof (open_linked _ HVp) as HL.
      assert (HI : incl (open_after [] pre) nodes).
      { intros y Hy. assert (Hl : Leads nbs nodes starts y); [|inversion Hl; auto].
        apply df_found0. rewrite E, discovered_app. apply in_or_app. left. apply in_rev.
        eapply sub_in; [apply open_sub|auto]. }
      pose proof (HI b Ho) as Hbn.
      exists b. split.
      + apply df_found0. rewrite E, discovered_app. apply in_or_app. left. apply in_rev.
        eapply sub_in; [apply open_sub|auto].
      + destruct (open_after [] pre) as [|x l]; [discriminate|]. injection Hh as ->.
        destruct Ho as [<-|Ho]; [apply leads_start; auto|].
        eapply leads_step; [eapply linked_leads; eauto|auto|auto].
    - intros (c & Hc & Hl).
      assert (D : (exists pre a b post, tr = pre ++ BackEdge a b :: post) \/
        (forall pre a b post, tr <> pre ++ BackEdge a b :: post)).
      { clear. induction tr as [|e tr IH]; [right; intros [|] ? ? ? ?; discriminate|].
        assert (K : (exists a b, e = BackEdge a b) \/ (forall a b, e <> BackEdge a b))
          by (destruct e; eauto; right; discriminate).
        destruct K as [(a & b & ->)|K]; [left; exists [], a, b, tr; auto|].
        destruct IH as [(p & a & b & q & ->)|IH]; [left; exists (e :: p), a, b, q; auto|].
        right. intros [|x p] a b q E; injection E; [intros _ H; edestruct K; eauto|].
        intros H _. eapply IH; eauto. }
      destruct D as [D|D]; auto. exfalso.
      pose proof (after_neighbours tr HV df_enters0 D) as HA.
      pose proof (fin_nodup _ HV) as ND.
      assert (Hf : forall x, Leads nbs nodes starts x -> In x (finished tr)).
      { intros x Hx. rewrite df_finished0. apply df_found0. auto. }
      assert (K : forall x, Leads nbs nodes (nbs c) x ->
        Leads nbs nodes starts x /\ exists f1 f2, finished tr = f1 ++ c :: f2 /\ In x f1).
      { induction 1 as [x Hx Hxn|x y Hx [IH1 (f1 & f2 & E & IH2)] Hy Hyn].
        - split; [eapply leads_step; eauto|]. apply HA; auto.
        - split; [eapply leads_step; eauto|]. exists f1, f2. split; auto.
          destruct (HA x y (Hf x IH1) Hy Hyn) as (g1 & g2 & E2 & Hg).
          apply in_split in IH2 as (h1 & h2 & ->).
          assert (g1 = h1) as ->.
          { apply (nodup_split x g1 g2 h1 (h2 ++ c :: f2)); [rewrite <- E2; auto|].
            rewrite <- E2, E, <- app_assoc. reflexivity. }
          apply in_or_app. auto. }
      destruct (K c Hl) as (_ & f1 & f2 & E & Hin). rewrite E in ND.
      apply NoDup_remove_2 in ND. apply ND. apply in_or_app. auto.
  Qed.

  Lemma told_back : forall tr : list ev, exists r, told back_edge tt tr = r /\
    (r = inr tt \/ r = inl tt) /\
    (r = inr tt <-> exists pre a b post, tr = pre ++ BackEdge a b :: post).
  Proof.
    induction tr as [|e tr (r & IH & Hr & Hi)].
    - exists (inl tt). split; auto. split; auto. split; [discriminate|].
      intros ([|] & ? & ? & ? & ?); discriminate.
    - assert (K : (exists a b, e = BackEdge a b) \/ (forall a b, e <> BackEdge a b))
        by (destruct e; eauto; right; discriminate).
      destruct K as [(a & b & ->)|K].
      + exists (inr tt). cbn [told back_edge]. split; auto. split; auto. split; auto.
        intros _. exists [], a, b, tr. auto.
      + exists r. assert (E : back_edge tt e = inl tt) by (destruct e; auto; edestruct K; eauto).
        cbn [told]. rewrite E. split; auto. split; auto. rewrite Hi. split.
        * intros (p & a & b & q & ->). exists (e :: p), a, b, q. auto.
        * intros ([|x p] & a & b & q & Ep); injection Ep; [intros _ H; edestruct K; eauto|].
          intros -> _. eauto.
  Qed.
End Events.

(** [is_cyclic_directed], whenever the search tells the events of a depth first search. *)
Lemma cyclic_of_dfs : forall C (nbs : C -> list C) nodes starts
  (search : (unit -> DfsEvent C -> unit + unit) -> unit -> outcome (unit + unit)),
  (exists tr, DepthFirst nbs nodes starts tr /\ forall f w, search f w = Ok (told f w tr)) ->
  exists b, is_err (search back_edge tt) = Ok b /\
    (b = true <-> exists c, Leads nbs nodes starts c /\ Leads nbs nodes (nbs c) c).
Proof.
  intros C nbs nodes starts search (tr & D & H). rewrite H. unfold is_err. cbn [bind].
  destruct (told_back tr) as (r & -> & Hr & Hi). eexists. split; [reflexivity|].
  rewrite <- (back_edges _ _ _ _ D), <- Hi. destruct Hr as [->| ->]; split; auto; discriminate.
Qed.
