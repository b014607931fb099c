(** * PruneProofs: the events of [depth_first_search] with a pruning visitor on any graph, its
    neighbours possibly off the board. *)

From Verif Require Import Machine Traverse Clients Lattice SquareGraph Basics TraverseProofs
  ClientsProofs PostAny Spec11 DfsEvents Spec16 DfsProofs PruneDfs Spec30.
From Coq Require Import ZifyBool ZifyNat Permutation.

Lemma for_return_any : forall It X S R (next : It -> outcome (option X * It)) it l
  (body : S -> X -> outcome (S + R)) s, Drains next it l -> Z.of_nat (length l) + 1 < 2 ^ 72 ->
  for_return next it body s = fold_return body l s.
Proof.
  intros It X S R next it l body s (it1 & it2 & HC & HN & _) Hlen. unfold for_return.
  assert (K : exists n, (n <= length l)%nat /\
    Rounds (fun st : It * S =>
      let! (x, it') := next (fst st) in
      match x with
      | None => Ok (inr (inl (snd st)))
      | Some x =>
          let! r := body (snd st) x in
          Ok (match r with inl s' => inl (it', s') | inr r => inr (inr r) end)
      end) n (it, s) (fold_return body l s)).
  { clear Hlen. revert s. induction HC; intros s.
    - exists 0%nat. split; [auto|]. apply R_done. cbn [fst snd]. rewrite HN. reflexivity.
    - cbn [fold_return]. destruct (body s x) as [[s1|r1]|f] eqn:Eb; cbn [bind].
      + destruct (IHHC HN s1) as (n & Hn & HR). exists (Datatypes.S n).
        split; [cbn [length]; lia|]. eapply R_more; [|exact HR].
        cbn [fst snd]. rewrite H. cbn [bind fst snd]. rewrite Eb. reflexivity.
      + exists 0%nat. split; [lia|]. apply R_done.
        cbn [fst snd]. rewrite H. cbn [bind fst snd]. rewrite Eb. reflexivity.
      + exists 0%nat. split; [lia|]. apply R_fail.
        cbn [fst snd]. rewrite H. cbn [bind fst snd]. rewrite Eb. reflexivity. }
  destruct K as (n & Hn & HR). eapply loop_rounds; [exact HR|lia].
Qed.

Section Cuts.
  Context {C : Type} (prunes : list (DfsEvent C) -> DfsEvent C -> bool).

  Lemma cut_app : forall pre post c, Cut prunes pre c -> Cut prunes (pre ++ post) c.
  Proof.
    intros pre post c (p & t & q & -> & H). exists p, t, (q ++ post). rewrite <- app_assoc. auto.
  Qed.

  Lemma cut_other : forall pre e c, (forall t, e <> Discover c t) ->
    (Cut prunes (pre ++ [e]) c <-> Cut prunes pre c).
  Proof.
    intros pre e c He. split; [|apply cut_app]. intros (p & t & q & E & H).
    apply split_snoc in E as [(-> & -> & ->)|(q' & -> & ->)]; [destruct (He t); auto|].
    exists p, t, q'. auto.
  Qed.

  Lemma cut_disc : forall pre c, Cut prunes pre c -> In c (discovered pre).
  Proof.
    intros pre c (p & t & q & -> & _). rewrite discovered_app. apply in_or_app. right. left. auto.
  Qed.

  Lemma cut_here : forall pre c t, ~ In c (discovered pre) ->
    (Cut prunes (pre ++ [Discover c t]) c <-> prunes pre (Discover c t) = true).
  Proof.
    intros pre c t Hc. split.
    - intros (p & t' & q & E & H). apply split_snoc in E as [(-> & -> & [= <-])|(q' & -> & ->)]; auto.
      destruct Hc. rewrite discovered_app. apply in_or_app. right. left. auto.
    - intros H. exists pre, t, []. auto.
  Qed.
End Cuts.

Lemma clock_snoc : forall C (pre : list (DfsEvent C)), times pre = zrange (Z.of_nat (length (times pre))) ->
  times pre ++ [Z.of_nat (length (times pre))]
  = zrange (Z.of_nat (length (times pre ++ [Z.of_nat (length (times pre))]))).
Proof.
  intros C pre H. rewrite app_length. cbn [length].
  replace (Z.of_nat (length (times pre) + 1)) with (Z.of_nat (length (times pre)) + 1) by lia.
  rewrite zrange_succ by lia. rewrite <- H. reflexivity.
Qed.

Section Any.
  Context {C It Ids VM : Type} (m : mode) (nb : C -> It)
    (nb_next : C -> It -> outcome (option C * It))
    (visit : VM -> C -> outcome (bool * VM)) (visited : VM -> C -> outcome bool)
    (dec : forall a b : C, {a = b} + {a <> b})
    (board : list C) (raw : C -> list C) (VR : VM -> list C -> Prop)
    (Hnb : forall c, In c board -> Drains (nb_next c) (nb c) (raw c))
    (Hfew : forall c, In c board -> (length (raw c) <= 8)%nat)
    (Hoff : forall c x, In c board -> In x (raw c) -> ~ In x board -> forall vm,
       visit vm x = Ok (false, vm) /\ visited vm x = Ok false)
    (Hvisit : forall vm M c, VR vm M -> In c board ->
       exists b vm', visit vm c = Ok (b, vm') /\ (b = true <-> ~ In c M) /\ VR vm' (c :: M))
    (Hvisited : forall vm M c, VR vm M -> In c board ->
       exists b, visited vm c = Ok b /\ (b = true <-> In c M))
    (VRext : forall vm M M', VR vm M -> (forall c, In c M <-> In c M') -> VR vm M')
    (Hlen : Z.of_nat (length board) <= 2 ^ 63) (starts : list C)
    (prunes : list (DfsEvent C) -> DfsEvent C -> bool).

  Notation ev := (DfsEvent C).
  Notation clock pre := (Z.of_nat (length (times pre))).
  Notation Cut := (Cut prunes).
  Notation PProper := (PProper prunes raw starts).

  (** What is looked at from [v], discovered after [pre]. *)
  Definition looks (pre : list ev) (t : Z) (v : C) : list C :=
    if prunes pre (Discover v t) then [] else raw v.

  Inductive run : nat -> list ev -> list (C * list C) -> list ev -> Prop :=
  | run_end pre : run 0 pre [] []
  | run_off n pre u v rest st0 tr :
      ~ In v board \/ (In v board /\ ~ In v (discovered pre) /\ prunes pre (TreeEdge u v) = true) ->
      run n (pre ++ [TreeEdge u v]) ((u, rest) :: st0) tr ->
      run (S n) pre ((u, v :: rest) :: st0) (TreeEdge u v :: tr)
  | run_tree n pre u v rest st0 tr :
      In v board -> ~ In v (discovered pre) -> prunes pre (TreeEdge u v) = false ->
      run n (pre ++ [TreeEdge u v; Discover v (clock pre)])
        ((v, looks (pre ++ [TreeEdge u v]) (clock pre) v) :: (u, rest) :: st0) tr ->
      run (S n) pre ((u, v :: rest) :: st0) (TreeEdge u v :: Discover v (clock pre) :: tr)
  | run_seen n pre u v rest st0 tr e f :
      In v board -> In v (discovered pre) -> (f = true <-> In v (finished pre)) ->
      e = (if f : bool then CrossForwardEdge u v else BackEdge u v) ->
      run n (pre ++ [e]) ((u, rest) :: st0) tr ->
      run (S n) pre ((u, v :: rest) :: st0) (e :: tr)
  | run_finish n pre u st0 tr :
      ~ In u (finished pre) ->
      run n (pre ++ [Finish u (clock pre)]) st0 tr ->
      run (S n) pre ((u, []) :: st0) (Finish u (clock pre) :: tr).

  (** ** What holds in between *)

  Record AI (pre : list ev) (stack : list (C * list C)) : Prop := {
    ai_open : map fst stack = open_after [] pre;
    ai_nodup : NoDup (discovered pre);
    ai_fin : NoDup (finished pre);
    ai_board : incl (discovered pre) board;
    ai_parts : forall c, In c (discovered pre) <-> In c (open_after [] pre) \/ In c (finished pre);
    ai_apart : forall c, In c (open_after [] pre) -> ~ In c (finished pre);
    ai_once : NoDup (open_after [] pre);
    ai_rest : forall u rest, In (u, rest) stack -> exists l, From u (edges_seen pre) l /\
      ((Cut pre u /\ l = [] /\ rest = []) \/ (~ Cut pre u /\ raw u = l ++ rest));
    ai_src : forall a b, In (a, b) (edges_seen pre) -> In a (discovered pre);
    ai_times : times pre = zrange (clock pre);
    ai_proper : forall p e q, pre = p ++ e :: q -> PProper p e
  }.

  Lemma proper_snoc : forall pre e,
    (forall p e q, pre = p ++ e :: q -> PProper p e) -> PProper pre e ->
    forall p e' q, pre ++ [e] = p ++ e' :: q -> PProper p e'.
  Proof.
    intros pre e H1 H2 p e' q H. apply split_snoc in H as [(-> & -> & ->)|(q' & _ & ->)]; auto.
    eapply H1. reflexivity.
  Qed.

  (** Nothing waits for its discovery. *)
  Definition Nx (pre : list ev) : Prop :=
    forall p a b q, pre = p ++ TreeEdge a b :: q -> In b board ->
      prunes p (TreeEdge a b) = false -> exists t q', q = Discover b t :: q'.

  Lemma nx_snoc : forall pre e, Nx pre ->
    (forall a b, e = TreeEdge a b -> In b board -> prunes pre e = false -> False) -> Nx (pre ++ [e]).
  Proof.
    intros pre e H He p a b q E Hb Hp. apply split_snoc in E as [(-> & -> & ->)|(q' & -> & ->)].
    - destruct (He a b); auto.
    - destruct (H p a b q' eq_refl Hb Hp) as (t & q2 & ->). exists t, (q2 ++ [e]). reflexivity.
  Qed.

  Lemma nx_two : forall pre u v t, Nx pre -> Nx (pre ++ [TreeEdge u v; Discover v t]).
  Proof.
    intros pre u v t H p a b q E Hb Hp.
    change [TreeEdge u v; Discover v t] with ([TreeEdge u v] ++ [Discover v t]) in E.
    rewrite app_assoc in E.
    apply split_snoc in E as [(_ & _ & E)|(q' & -> & E)]; [discriminate|].
    apply split_snoc in E as [(-> & _ & [= <- <-])|(q2 & -> & ->)].
    - exists t, []. reflexivity.
    - destruct (H p a b q2 eq_refl Hb Hp) as (t2 & q3 & ->).
      exists t2, ((q3 ++ [TreeEdge u v]) ++ [Discover v t]). reflexivity.
  Qed.

  (** A node is discovered. *)
  Lemma ai_enter : forall pre st v, AI pre st -> In v board -> ~ In v (discovered pre) ->
    ((st = [] /\ exists before after, starts = before ++ v :: after /\ incl before (discovered pre)) \/
     exists pre' p, pre = pre' ++ [TreeEdge p v] /\ prunes pre' (TreeEdge p v) = false) ->
    AI (pre ++ [Discover v (clock pre)]) ((v, looks pre (clock pre) v) :: st).
  Proof.
    intros pre st v I Hv Hnew Htop. destruct I.
    constructor; rewrite ?discovered_app, ?finished_app, ?times_app, ?edges_seen_app, ?open_app;
      cbn [discovered finished times edges_seen open_after app map fst]; rewrite ?app_nil_r; auto.
    - rewrite ai_open0. reflexivity.
    - apply snoc_nodup; auto.
    - intros c Hc. apply in_app_or in Hc as [Hc|[<-|[]]]; auto.
    - intros c. rewrite in_app_iff, ai_parts0. cbn [In]. tauto.
    - intros c [<-|Hc]; auto. intros Hf. apply Hnew. apply ai_parts0. auto.
    - constructor; auto. intros Ho. apply Hnew. apply ai_parts0. auto.
    - intros u rest [[= <- <-]|H].
      + exists []. split; [apply from_none; intros b Hb; eauto|].
        rewrite cut_here by auto. unfold looks.
        destruct (prunes pre (Discover v (clock pre))) eqn:Ep; [left|right]; auto.
      + destruct (ai_rest0 u rest H) as (l & H1 & H2). exists l. split; auto.
        rewrite cut_other; auto. intros t [= ->]. apply Hnew. apply ai_parts0. left.
        rewrite <- ai_open0. apply in_map_iff. exists (u, rest). auto.
    - intros a b Hb. apply in_or_app. left. eauto.
    - apply clock_snoc; auto.
    - apply proper_snoc; auto. split; auto. destruct Htop as [[-> Htop]|Htop]; auto.
  Qed.

  Definition edge_event (u v : C) (e : ev) : Prop :=
    e = TreeEdge u v \/ e = BackEdge u v \/ e = CrossForwardEdge u v.

  (** An edge is looked at. *)
  Lemma ai_look : forall pre u v rest st e, AI pre ((u, v :: rest) :: st) -> edge_event u v e ->
    PProper pre e -> AI (pre ++ [e]) ((u, rest) :: st).
  Proof.
    intros pre u v rest st e I He Hp. destruct I.
    assert (E1 : discovered [e] = []) by (destruct He as [->|[->| ->]]; reflexivity).
    assert (E2 : finished [e] = []) by (destruct He as [->|[->| ->]]; reflexivity).
    assert (E3 : times [e] = []) by (destruct He as [->|[->| ->]]; reflexivity).
    assert (E4 : edges_seen [e] = [(u, v)]) by (destruct He as [->|[->| ->]]; reflexivity).
    assert (E5 : forall s, open_after s [e] = s) by (intros s; destruct He as [->|[->| ->]]; reflexivity).
    assert (E6 : forall c t, e <> Discover c t) by (intros c t; destruct He as [->|[->| ->]]; discriminate).
    constructor; rewrite ?discovered_app, ?finished_app, ?times_app, ?edges_seen_app, ?open_app,
      ?E1, ?E2, ?E3, ?E4, ?E5, ?app_nil_r; auto.
    - intros u' rest' [[= <- <-]|H].
      + destruct (ai_rest0 u (v :: rest)) as (l & Fl & [(_ & _ & ?)|[Hc El]]); [left; auto|discriminate|].
        exists (l ++ [v]). split; [apply from_snoc; auto|]. right. rewrite cut_other by auto.
        rewrite <- app_assoc. auto.
      + destruct (ai_rest0 u' rest') as (l & Fl & Hl); [right; auto|].
        exists l. split; [|rewrite cut_other by auto; auto]. apply from_snoc_other; auto. intros <-.
        rewrite <- ai_open0 in ai_once0. cbn [map fst] in ai_once0. inversion ai_once0; subst.
        apply H2. apply in_map_iff. exists (u, rest'). auto.
    - intros a b Hb. apply in_app_or in Hb as [Hb|[[= <- <-]|[]]]; [eauto|].
      apply ai_parts0. left. rewrite <- ai_open0. left. reflexivity.
    - apply proper_snoc; auto.
  Qed.

  (** A node is finished. *)
  Lemma ai_finish : forall pre u st, AI pre ((u, []) :: st) ->
    ~ In u (finished pre) /\ AI (pre ++ [Finish u (clock pre)]) st.
  Proof.
    intros pre u st I. destruct I.
    cbn [map fst] in ai_open0.
    assert (Hu : ~ In u (finished pre)).
    { apply ai_apart0. rewrite <- ai_open0. left. auto. }
    assert (Hst : ~ In u (map fst st) /\ NoDup (map fst st)).
    { rewrite <- ai_open0 in ai_once0. inversion ai_once0; auto. }
    split; auto.
    constructor; rewrite ?discovered_app, ?finished_app, ?times_app, ?edges_seen_app, ?open_app;
      cbn [discovered finished times edges_seen open_after app map fst]; rewrite ?app_nil_r; auto;
      rewrite <- ?ai_open0; cbn [tl]; auto; try tauto.
    - apply snoc_nodup; auto.
    - intros c. rewrite ai_parts0, in_app_iff, <- ai_open0. cbn [In]. tauto.
    - intros c Hc Hf. apply in_app_or in Hf as [Hf|[<-|[]]]; [|tauto].
      revert Hf. apply ai_apart0. rewrite <- ai_open0. right. auto.
    - intros u' rest H. destruct (ai_rest0 u' rest) as (l & H1 & H2); [right; auto|].
      exists l. rewrite cut_other by discriminate. auto.
    - apply clock_snoc; auto.
    - apply proper_snoc; auto. destruct (ai_rest0 u []) as (l & Fl & Hl); [left; auto|].
      rewrite app_nil_r in Hl. cbn [PProper Spec30.PProper]. split; [rewrite <- ai_open0; reflexivity|].
      split; auto. destruct Hl as [(Hc & -> & _)|[Hc ->]]; tauto.
  Qed.

  (** ** Every run ends *)

  Definition weight (pre : list ev) (stack : list (C * list C)) : nat :=
    (9 * (length board - length (discovered pre)) +
     list_sum (map (fun x => S (length (snd x))) stack))%nat.

  Lemma weight_cons : forall pre u r st, weight pre ((u, r) :: st) = (S (length r) + weight pre st)%nat.
  Proof. intros. unfold weight, list_sum. cbn [map fold_right snd]. lia. Qed.

  Lemma weight_same : forall pre e st, discovered [e] = [] -> weight (pre ++ [e]) st = weight pre st.
  Proof. intros pre e st H. unfold weight. rewrite discovered_app, H, app_nil_r. reflexivity. Qed.

  Lemma looks_few : forall pre t v, In v board -> (length (looks pre t v) <= 8)%nat.
  Proof.
    intros pre t v Hv. unfold looks. destruct (prunes _ _); [cbn; lia|apply Hfew; auto].
  Qed.

  Definition AJ (pre : list ev) (stack : list (C * list C)) : Prop := AI pre stack /\ Nx pre.

  Lemma in_dec_c : forall x (l : list C), In x l \/ ~ In x l.
  Proof. intros x l. destruct (in_dec dec x l); auto. Qed.

  Lemma run_exists : forall k pre stack, (weight pre stack <= k)%nat -> AJ pre stack ->
    exists n tr, (n <= weight pre stack)%nat /\ run n pre stack tr /\ AJ (pre ++ tr) [].
  Proof.
    induction k as [|k IH]; intros pre stack Hk (I & Hnx).
    { destruct stack as [|[u rest] st].
      - exists 0%nat, []. rewrite app_nil_r. split; [lia|]. split; [constructor|]. split; auto.
      - rewrite weight_cons in Hk. lia. }
    destruct stack as [|[u [|v rest]] st].
    { exists 0%nat, []. rewrite app_nil_r. split; [lia|]. split; [constructor|]. split; auto. }
    - destruct (ai_finish _ _ _ I) as [Hu I'].
      assert (W : weight pre ((u, []) :: st) = S (weight (pre ++ [Finish u (clock pre)]) st)).
      { rewrite weight_same by reflexivity. apply weight_cons. }
      edestruct (IH (pre ++ [Finish u (clock pre)]) st) as (n & tr & Hn & R & A).
      + lia.
      + split; [exact I'|]. apply nx_snoc; auto. discriminate.
      + exists (S n), (Finish u (clock pre) :: tr). split; [lia|]. split; [constructor; auto|].
        rewrite <- app_assoc in A. exact A.
    - assert (Hu : In u (discovered pre)).
      { apply (ai_parts _ _ I). left. rewrite <- (ai_open _ _ I). left. auto. }
      assert (Hh : hd_error (open_after [] pre) = Some u).
      { rewrite <- (ai_open _ _ I). reflexivity. }
      assert (Hv : ~ Cut pre u /\ In v (raw u)).
      { destruct (ai_rest _ _ I u (v :: rest)) as (l & _ & [(_ & _ & ?)|[Hc El]]); [left; auto|discriminate|].
        split; auto. rewrite El. apply in_or_app. right. left. auto. }
      destruct Hv as [Hcut Hv].
      assert (Hub : In u board) by (apply (ai_board _ _ I); auto).
      (* a step that only looks at the edge *)
      assert (LOOK : forall e, edge_event u v e -> PProper pre e ->
        (forall a b, e = TreeEdge a b -> In b board -> prunes pre e = false -> False) ->
        (forall n tr, run n (pre ++ [e]) ((u, rest) :: st) tr -> run (S n) pre ((u, v :: rest) :: st) (e :: tr)) ->
        exists n tr, (n <= weight pre ((u, v :: rest) :: st))%nat /\
          run n pre ((u, v :: rest) :: st) tr /\ AJ (pre ++ tr) []).
      { intros e He Hp Hno Hrun.
        assert (E1 : discovered [e] = []) by (destruct He as [->|[->| ->]]; reflexivity).
        edestruct (IH (pre ++ [e]) ((u, rest) :: st)) as (n & tr & Hn & R & A).
        - rewrite weight_same, weight_cons by auto. rewrite weight_cons in Hk. cbn [length] in Hk. lia.
        - split; [eapply ai_look; eauto|]. apply nx_snoc; auto.
        - exists (S n), (e :: tr). split.
          { rewrite weight_same, weight_cons in Hn by auto. rewrite weight_cons. cbn [length]. lia. }
          split; [auto|]. rewrite <- app_assoc in A. exact A. }
      destruct (in_dec_c v board) as [Hvb|Hvb].
      2:{ apply (LOOK (TreeEdge u v)); [left; auto| | |].
          - split; [auto|]. split; [auto|]. split; [auto|]. intros Hd. apply Hvb. apply (ai_board _ _ I). auto.
          - intros a b [= <- <-]. tauto.
          - intros n tr R. apply run_off; auto. }
      destruct (in_dec_c v (discovered pre)) as [Hd|Hd].
      { set (f := if in_dec dec v (finished pre) then true else false).
        assert (Hf : f = true <-> In v (finished pre)).
        { unfold f. destruct (in_dec dec v (finished pre)); split; auto; discriminate. }
        apply (LOOK (if f then CrossForwardEdge u v else BackEdge u v)).
        - destruct f; [right; right|right; left]; auto.
        - destruct f; (split; [auto|]); (split; [auto|]); (split; [auto|]); [tauto|].
          apply (ai_parts _ _ I) in Hd as [Hd|Hd]; auto. apply Hf in Hd. discriminate.
        - destruct f; discriminate.
        - intros n tr R. eapply run_seen; eauto. }
      assert (PT : PProper pre (TreeEdge u v)) by (split; [auto|]; split; [auto|]; split; auto).
      destruct (prunes pre (TreeEdge u v)) eqn:Epr.
      { apply (LOOK (TreeEdge u v)); [left; auto|auto| |].
        - intros a b _ _. rewrite Epr. discriminate.
        - intros n tr R. apply run_off; auto. }
      assert (I1 : AI (pre ++ [TreeEdge u v]) ((u, rest) :: st)) by (eapply ai_look; [exact I|left; auto|auto]).
      assert (E : discovered (pre ++ [TreeEdge u v]) = discovered pre)
        by (rewrite discovered_app; apply app_nil_r).
      assert (Et : times (pre ++ [TreeEdge u v]) = times pre)
        by (rewrite times_app; apply app_nil_r).
      set (L := looks (pre ++ [TreeEdge u v]) (clock pre) v).
      assert (I2 : AI (pre ++ [TreeEdge u v; Discover v (clock pre)]) ((v, L) :: (u, rest) :: st)).
      { pose proof (ai_enter _ _ v I1 Hvb) as H. rewrite E, Et, <- app_assoc in H. apply H; auto.
        right. exists pre, u. auto. }
      assert (Hl : (length (discovered pre) < length board)%nat).
      { apply (NoDup_incl_length (l := v :: discovered pre)).
        - constructor; auto. apply (ai_nodup _ _ I).
        - intros x [<-|Hx]; auto. apply (ai_board _ _ I); auto. }
      assert (W : (S (weight (pre ++ [TreeEdge u v; Discover v (clock pre)]) ((v, L) :: (u, rest) :: st))
                   <= weight pre ((u, v :: rest) :: st))%nat).
      { rewrite !weight_cons. unfold weight. rewrite discovered_app, app_length.
        cbn [discovered length]. pose proof (looks_few (pre ++ [TreeEdge u v]) (clock pre) v Hvb) as HL.
        fold L in HL. lia. }
      edestruct (IH (pre ++ [TreeEdge u v; Discover v (clock pre)]) ((v, L) :: (u, rest) :: st))
        as (n & tr & Hn & R & A).
      + lia.
      + split; [exact I2|]. apply nx_two; auto.
      + exists (S n), (TreeEdge u v :: Discover v (clock pre) :: tr). split; [lia|].
        split; [apply run_tree; auto|]. rewrite <- app_assoc in A. exact A.
  Qed.

  (** The run over all the starting nodes. *)
  Inductive runs : list ev -> list C -> list ev -> Prop :=
  | runs_nil pre : runs pre [] []
  | runs_old pre c cs tr : In c (discovered pre) -> runs pre cs tr -> runs pre (c :: cs) tr
  | runs_new pre c cs n t1 t2 : ~ In c (discovered pre) ->
      Z.of_nat n < 2 ^ 72 ->
      run n (pre ++ [Discover c (clock pre)]) [(c, looks pre (clock pre) c)] t1 ->
      runs (pre ++ Discover c (clock pre) :: t1) cs t2 ->
      runs pre (c :: cs) (Discover c (clock pre) :: t1 ++ t2).

  Lemma weight_small : forall pre p t v, In v board -> Z.of_nat (weight pre [(v, looks p t v)]) < 2 ^ 72.
  Proof.
    intros pre p t v Hv. rewrite weight_cons. unfold weight, list_sum. cbn [map fold_right].
    pose proof (looks_few p t v Hv). change (2 ^ 72) with (512 * 2 ^ 63).
    assert (1 <= 2 ^ 63) by (vm_compute; discriminate). revert Hlen H0. generalize (2 ^ 63). intros y Hy.
    lia.
  Qed.

  Lemma runs_exists : forall cs pre before, incl cs board ->
    starts = before ++ cs -> incl before (discovered pre) -> AJ pre [] ->
    exists tr, runs pre cs tr /\ AJ (pre ++ tr) [] /\ forall c, In c cs -> In c (discovered (pre ++ tr)).
  Proof.
    induction cs as [|c cs IH]; intros pre before Hcs Est Hbf (I & Hnx).
    { exists []. rewrite app_nil_r. split; [constructor|]. split; [split; auto|]. intros c []. }
    assert (Hcs' : incl cs board) by (intros y Hy; apply Hcs; right; auto).
    assert (Hc : In c board) by (apply Hcs; left; auto).
    destruct (in_dec_c c (discovered pre)) as [Hd|Hd].
    - destruct (IH pre (before ++ [c]) Hcs') as (tr & R & A & F); [| |split; auto|].
      { rewrite <- app_assoc. auto. }
      { intros y Hy. apply in_app_or in Hy as [Hy|[<-|[]]]; auto. }
      exists tr. split; [constructor; auto|]. split; auto. intros y [<-|Hy]; auto.
      rewrite discovered_app. apply in_or_app. auto.
    - assert (I1 : AJ (pre ++ [Discover c (clock pre)]) [(c, looks pre (clock pre) c)]).
      { split; [apply ai_enter; auto; left; split; eauto|]. apply nx_snoc; auto. discriminate. }
      destruct (run_exists _ _ _ (le_n _) I1) as (n & t1 & Hn & R & A).
      rewrite <- app_assoc in A. cbn [app] in A.
      edestruct (fun H1 H2 => IH _ (before ++ [c]) Hcs' H1 H2 A) as (t2 & R2 & A2 & F).
      { rewrite <- app_assoc. auto. }
      { rewrite discovered_app. intros y Hy. apply in_or_app.
        apply in_app_or in Hy as [Hy|[<-|[]]]; [left; auto|right; left; auto]. }
      rewrite <- app_assoc in A2, F. cbn [app] in A2, F.
      exists (Discover c (clock pre) :: t1 ++ t2). split.
      + apply runs_new with (n := n); auto.
        pose proof (weight_small (pre ++ [Discover c (clock pre)]) pre (clock pre) c Hc).
        apply Z.le_lt_trans with (2 := H). apply inj_le. exact Hn.
      + split; auto. intros y [<-|Hy]; auto. rewrite discovered_app. apply in_or_app.
        right. left. auto.
  Qed.

  Lemma aj_start : AJ [] [].
  Proof.
    split.
    - constructor; cbn; auto; try (constructor); try tauto; try (intros ? []; fail); try (intros ? ? []; fail).
      + intros p e q H. destruct p; discriminate.
    - intros p a b q H. destruct p; discriminate.
  Qed.

  (** ** The search follows the run *)

  Context {V B : Type} (visitor : V -> ev -> Control V B) (w0 : V)
    (Hpr : forall pre e, prunes pre e = pruned_by visitor w0 pre e).

  Notation state := (@DfsState C (option It) VM V).
  Notation round := (pdfs_round m nb nb_next visit visited visitor).

  (** A loop with the neighbours that it has still to look at. *)
  Definition left (u : C) (it : option It) (l : list C) : Prop :=
    match it with None => l = [] | Some i => Drains (nb_next u) i l end.

  Record Rep (st : state) (pre : list ev) (stack : list (C * list C)) : Prop := {
    rp_open : Forall2 (fun x y => fst x = fst y /\ left (fst x) (snd x) (snd y)) (ds_open st) stack;
    rp_disc : VR (ds_disc st) (discovered pre);
    rp_fin : VR (ds_fin st) (finished pre);
    rp_time : ds_time st = clock pre;
    rp_val : state_after visitor w0 pre = Some (ds_val st)
  }.

  Lemma left_some : forall u it v l, left u it (v :: l) -> exists i i', it = Some i /\
    nb_next u i = Ok (Some v, i') /\ left u (Some i') l.
  Proof.
    intros u [i|] v l H; [|discriminate]. apply drains_some in H as (i' & E & H).
    exists i, i'. auto.
  Qed.

  Lemma left_none : forall u it, left u it [] ->
    exists it', match it with None => Ok (None, None)
                | Some i => let! (x, i') := nb_next u i in Ok (x, Some i') end = Ok (@None C, it').
  Proof.
    intros u [i|] H; [|eauto]. apply drains_none in H as (i' & E). rewrite E. cbn [bind]. eauto.
  Qed.

  Lemma ext_snoc : forall vm l c, VR vm (c :: l) -> VR vm (l ++ [c]).
  Proof. intros vm l c H. eapply VRext; [exact H|]. intros x. rewrite in_app_iff. cbn [In]. tauto. Qed.

  Lemma after_snoc : forall pre w w' e, state_after visitor w pre = Some w' ->
    state_after visitor w (pre ++ [e]) =
    match visitor w' e with Continue x | Prune x => Some x | Break _ => None end.
  Proof.
    induction pre as [|e0 pre IH]; intros w w' e H; cbn [state_after app] in *.
    - injection H as ->. destruct (visitor w' e); reflexivity.
    - destruct (visitor w e0); auto; discriminate.
  Qed.

  Lemma pruned_now : forall st pre stack e, Rep st pre stack ->
    prunes pre e = match visitor (ds_val st) e with Prune _ => true | _ => false end.
  Proof. intros st pre stack e R. rewrite Hpr. unfold pruned_by. rewrite (rp_val _ _ _ R). reflexivity. Qed.

  (** Entering a new node. *)
  Lemma rep_enter : forall st pre stack v, Rep st pre stack -> In v board -> ~ In v (discovered pre) ->
    match visitor (ds_val st) (Discover v (clock pre)) with
    | Break b => pdfs_enter nb visit visitor st v = Ok (inr b)
    | Prune w | Continue w => exists st', pdfs_enter nb visit visitor st v = Ok (inl st') /\
        ds_val st' = w /\
        Rep st' (pre ++ [Discover v (clock pre)]) ((v, looks pre (clock pre) v) :: stack)
    end.
  Proof.
    intros st pre stack v R Hv Hd.
    pose proof (pruned_now _ _ _ (Discover v (clock pre)) R) as Ep.
    pose proof (after_snoc _ _ _ (Discover v (clock pre)) (rp_val _ _ _ R)) as Ea.
    destruct R.
    destruct (Hvisit _ _ _ rp_disc0 Hv) as (b & vm & E & Hb & HV).
    assert (b = true) as -> by (apply Hb; auto).
    unfold pdfs_enter. rewrite E. cbn [bind]. rewrite rp_time0. unfold looks. rewrite Ep.
    destruct (visitor (ds_val st) (Discover v (clock pre))) as [w|w|x]; [| |reflexivity];
      (eexists; split; [reflexivity|]; split; [reflexivity|];
       constructor; cbn [ds_open ds_disc ds_fin ds_time ds_val]; auto;
       rewrite ?discovered_app, ?finished_app, ?times_app;
       cbn [discovered finished times]; rewrite ?app_nil_r; auto;
       [|apply ext_snoc; auto|rewrite app_length; cbn [length]; lia]).
    - constructor; auto. split; [reflexivity|]. apply Hnb; auto.
    - constructor; auto. split; reflexivity.
  Qed.

  Definition Follows (n : nat) (pre tr : list ev) (st : state) : Prop :=
    exists k, (k <= n)%nat /\
      match ptold visitor (ds_val st) tr with
      | Ok (inl w) => exists st', Rounds round k st (Ok (inl st')) /\ Rep st' (pre ++ tr) [] /\ ds_val st' = w
      | Ok (inr b) => Rounds round k st (Ok (inr b))
      | Fail f => Rounds round k st (Fail f)
      end.

  Lemma follows_more : forall n pre es tr st st1, round st = Ok (inl st1) ->
    Follows n (pre ++ es) tr st1 ->
    ptold visitor (ds_val st) (es ++ tr) = ptold visitor (ds_val st1) tr ->
    Follows (S n) pre (es ++ tr) st.
  Proof.
    intros n pre es tr st st1 E (k & Hk & HR) Et. exists (S k). split; [lia|]. rewrite Et.
    destruct (ptold visitor (ds_val st1) tr) as [[w|b]|f].
    - destruct HR as (st' & H1 & H2 & H3). exists st'. split; [eapply R_more; eauto|].
      rewrite <- app_assoc in H2. auto.
    - eapply R_more; eauto.
    - eapply R_more; eauto.
  Qed.

  (** A step that only looks at an edge. *)
  Lemma look_follows : forall n pre u v it' lo rest st0 tr st e,
    edge_event u v e ->
    match visitor (ds_val st) e with
    | Break b => round st = Ok (inr (inr b))
    | Prune w | Continue w =>
        round st = Ok (inl (mkDfs ((u, it') :: lo) (ds_disc st) (ds_fin st) (ds_time st) w))
    end ->
    Forall2 (fun x y => fst x = fst y /\ left (fst x) (snd x) (snd y)) lo st0 -> left u it' rest ->
    VR (ds_disc st) (discovered pre) -> VR (ds_fin st) (finished pre) -> ds_time st = clock pre ->
    state_after visitor w0 pre = Some (ds_val st) ->
    (forall st1, Rep st1 (pre ++ [e]) ((u, rest) :: st0) -> Follows n (pre ++ [e]) tr st1) ->
    Follows (S n) pre (e :: tr) st.
  Proof.
    intros n pre u v it' lo rest st0 tr st e He Hst Ho Hl Hd Hf Ht Hw IH.
    pose proof (after_snoc _ _ _ e Hw) as Ea.
    assert (E1 : discovered (pre ++ [e]) = discovered pre)
      by (rewrite discovered_app; destruct He as [->|[->| ->]]; apply app_nil_r).
    assert (E2 : finished (pre ++ [e]) = finished pre)
      by (rewrite finished_app; destruct He as [->|[->| ->]]; apply app_nil_r).
    assert (E3 : times (pre ++ [e]) = times pre)
      by (rewrite times_app; destruct He as [->|[->| ->]]; apply app_nil_r).
    change (e :: tr) with ([e] ++ tr).
    destruct (visitor (ds_val st) e) as [w|w|b] eqn:Ev.
    3:{ exists 0%nat. split; [lia|]. cbn [app ptold]. rewrite Ev. apply R_done. exact Hst. }
    - eapply follows_more; [exact Hst| |].
      + apply IH. constructor; cbn [ds_open ds_disc ds_fin ds_time ds_val]; rewrite ?E1, ?E2, ?E3; auto.
      + cbn [app ptold ds_val]. rewrite Ev. reflexivity.
    - eapply follows_more; [exact Hst| |].
      + apply IH. constructor; cbn [ds_open ds_disc ds_fin ds_time ds_val]; rewrite ?E1, ?E2, ?E3; auto.
      + cbn [app ptold ds_val]. rewrite Ev. destruct He as [->|[->| ->]]; reflexivity.
  Qed.

  Lemma looks_incl : forall pre t v, incl (looks pre t v) (raw v).
  Proof.
    intros pre t v. unfold looks. destruct (prunes _ _); [intros x []|apply incl_refl].
  Qed.

  Lemma run_follows : forall n pre stack tr, run n pre stack tr ->
    Forall (fun x => In (fst x) board /\ incl (snd x) (raw (fst x))) stack ->
    forall st, Rep st pre stack -> Follows n pre tr st.
  Proof.
    induction 1; intros HF st R.
    - exists 0%nat. split; [lia|]. cbn [ptold]. exists st. rewrite app_nil_r. split; [|auto].
      apply R_done. destruct R. inversion rp_open0 as [Ho|]. unfold pdfs_round. rewrite <- Ho. reflexivity.
    - (* only told *)
      apply Forall_cons_iff in HF as [[Hu Hr] HF]. cbn [fst snd] in Hu, Hr.
      pose proof (pruned_now _ _ _ (TreeEdge u v) R) as Epn.
      destruct R as [Ro Rd Rf Rt Rv]. inversion Ro as [|[u' it] y lo ls [Hfst Hdr] Ho Eo Ey]; subst.
      cbn [fst snd] in Hfst, Hdr. subst u'.
      apply left_some in Hdr as (i & i' & -> & En & Hdr).
      eapply look_follows with (u := u) (v := v) (it' := Some i') (lo := lo) (rest := rest) (st0 := st0);
        eauto; [left; auto| |].
      2:{ intros st1 R1. apply IHrun; auto. constructor; auto. split; auto. intros y Hy. apply Hr. right. auto. }
      unfold pdfs_round. rewrite <- Eo, En. cbn [bind].
      destruct H as [H|(Hb & Hnd & Hp)].
      + destruct (Hoff u v Hu ltac:(apply Hr; left; auto) H (ds_disc st)) as [Ef Ed].
        rewrite Ed. cbn [bind]. destruct (visitor (ds_val st) (TreeEdge u v)) as [w|w|b]; auto.
        unfold pdfs_enter. cbn [ds_disc]. rewrite Ef. cbn [bind]. reflexivity.
      + destruct (Hvisited _ _ _ Rd Hb) as (d & Ed & Hd).
        assert (d = false) as -> by (destruct d; auto; exfalso; apply Hnd; apply Hd; auto).
        rewrite Ed. cbn [bind]. rewrite Hp in Epn.
        destruct (visitor (ds_val st) (TreeEdge u v)) as [w|w|b]; auto; discriminate.
    - (* tree *)
      apply Forall_cons_iff in HF as [[Hu Hr] HF]. cbn [fst snd] in Hu, Hr.
      pose proof (pruned_now _ _ _ (TreeEdge u v) R) as Epn. rewrite H1 in Epn.
      pose proof (after_snoc _ _ _ (TreeEdge u v) (rp_val _ _ _ R)) as Ea.
      destruct R as [Ro Rd Rf Rt Rv]. inversion Ro as [|[u' it] y lo ls [Hfst Hdr] Ho Eo Ey]; subst.
      cbn [fst snd] in Hfst, Hdr. subst u'.
      apply left_some in Hdr as (i & i' & -> & En & Hdr).
      destruct (Hvisited _ _ _ Rd H) as (d & Ed & Hd).
      assert (d = false) as -> by (destruct d; auto; exfalso; apply H0; apply Hd; auto).
      destruct (visitor (ds_val st) (TreeEdge u v)) as [w|w|b] eqn:Ev1; [|discriminate|].
      2:{ exists 0%nat. split; [lia|]. cbn [ptold]. rewrite Ev1. apply R_done.
          unfold pdfs_round. rewrite <- Eo, En. cbn [bind]. rewrite Ed. cbn [bind]. rewrite Ev1. reflexivity. }
      set (st1 := mkDfs ((u, Some i') :: lo) (ds_disc st) (ds_fin st) (ds_time st) w : state).
      assert (R1 : Rep st1 (pre ++ [TreeEdge u v]) ((u, rest) :: st0)).
      { constructor; cbn [ds_open ds_disc ds_fin ds_time ds_val st1]; auto;
          rewrite ?discovered_app, ?finished_app, ?times_app; cbn [discovered finished times];
          rewrite ?app_nil_r; auto. }
      pose proof (rep_enter st1 _ _ v R1 H) as HE.
      rewrite discovered_app, times_app in HE. cbn [discovered times] in HE. rewrite !app_nil_r in HE.
      specialize (HE H0). change (ds_val st1) with w in HE.
      assert (Es : forall r, pdfs_enter nb visit visitor st1 v = Ok r ->
        round st = Ok (match r with inl st => inl st | inr b => inr (inr b) end)).
      { intros r Er. unfold pdfs_round. rewrite <- Eo, En. cbn [bind]. rewrite Ed. cbn [bind]. rewrite Ev1.
        fold st1. rewrite Er. reflexivity. }
      change (TreeEdge u v :: Discover v (clock pre) :: tr)
        with ([TreeEdge u v; Discover v (clock pre)] ++ tr).
      destruct (visitor w (Discover v (clock pre))) as [w2|w2|b] eqn:Ev2.
      3:{ exists 0%nat. split; [lia|]. cbn [app ptold]. rewrite Ev1, Ev2. apply R_done.
          rewrite (Es _ HE). reflexivity. }
      + destruct HE as (st2 & E2 & Hw2 & R2). rewrite <- app_assoc in R2. cbn [app] in R2.
        eapply follows_more; [rewrite (Es _ E2); reflexivity| |].
        * apply IHrun; auto. constructor; [|constructor; auto; split; auto; intros y Hy; apply Hr; right; auto].
          cbn [fst snd]. split; auto. apply looks_incl.
        * cbn [app ptold]. rewrite Ev1, Ev2, Hw2. reflexivity.
      + destruct HE as (st2 & E2 & Hw2 & R2). rewrite <- app_assoc in R2. cbn [app] in R2.
        eapply follows_more; [rewrite (Es _ E2); reflexivity| |].
        * apply IHrun; auto. constructor; [|constructor; auto; split; auto; intros y Hy; apply Hr; right; auto].
          cbn [fst snd]. split; auto. apply looks_incl.
        * cbn [app ptold]. rewrite Ev1, Ev2, Hw2. reflexivity.
    - (* back or cross *)
      apply Forall_cons_iff in HF as [[Hu Hr] HF]. cbn [fst snd] in Hu, Hr.
      destruct R as [Ro Rd Rf Rt Rv]. inversion Ro as [|[u' it] y lo ls [Hfst Hdr] Ho Eo Ey]; subst.
      cbn [fst snd] in Hfst, Hdr. subst u'.
      apply left_some in Hdr as (i & i' & -> & En & Hdr).
      eapply look_follows with (u := u) (v := v) (it' := Some i') (lo := lo) (rest := rest) (st0 := st0);
        eauto.
      { destruct f; [right; right|right; left]; auto. }
      2:{ intros st1 R1. apply IHrun; auto. constructor; auto. split; auto. intros y Hy. apply Hr. right. auto. }
      unfold pdfs_round. rewrite <- Eo, En. cbn [bind].
      destruct (Hvisited _ _ _ Rd H) as (d & Ed & Hd).
      assert (d = true) as -> by (apply Hd; auto).
      destruct (Hvisited _ _ _ Rf H) as (f' & Ef & Hf).
      assert (f' = f) as -> by (rewrite <- H1 in Hf; destruct f, f'; tauto || (symmetry; tauto) || (exfalso; destruct Hf as [K1 K2]; (discriminate K1 || discriminate K2); reflexivity)).
      rewrite Ed. cbn [bind]. rewrite Ef. cbn [bind].
      destruct (visitor (ds_val st) (if f then CrossForwardEdge u v else BackEdge u v)); auto.
    - (* finish *)
      apply Forall_cons_iff in HF as [[Hu Hr] HF]. cbn [fst snd] in Hu, Hr.
      pose proof (after_snoc _ _ _ (Finish u (clock pre)) (rp_val _ _ _ R)) as Ea.
      destruct R as [Ro Rd Rf Rt Rv]. inversion Ro as [|[u' it] y lo ls [Hfst Hdr] Ho Eo Ey]; subst.
      cbn [fst snd] in Hfst, Hdr. subst u'.
      apply left_none in Hdr as (it' & En).
      destruct (Hvisit _ _ _ Rf Hu) as (f & vm & Ef & Hf & HV).
      assert (f = true) as -> by (apply Hf; auto).
      assert (Es : round st = match visitor (ds_val st) (Finish u (clock pre)) with
        | Break b => Ok (inr (inr b)) | Prune _ => Fail FPanic
        | Continue w => Ok (inl (mkDfs lo (ds_disc st) vm (ds_time st + 1) w)) end).
      { unfold pdfs_round. rewrite <- Eo, En. cbn [bind]. rewrite Ef. cbn [bind]. rewrite Rt. reflexivity. }
      change (Finish u (clock pre) :: tr) with ([Finish u (clock pre)] ++ tr).
      destruct (visitor (ds_val st) (Finish u (clock pre))) as [w|w|b] eqn:Ev1.
      2:{ exists 0%nat. split; [lia|]. cbn [app ptold]. rewrite Ev1. apply R_fail. exact Es. }
      2:{ exists 0%nat. split; [lia|]. cbn [app ptold]. rewrite Ev1. apply R_done. exact Es. }
      eapply follows_more; [exact Es| |].
      + apply IHrun; auto. constructor; cbn [ds_open ds_disc ds_fin ds_time ds_val]; auto;
          rewrite ?discovered_app, ?finished_app, ?times_app; cbn [discovered finished times];
          rewrite ?app_nil_r; auto.
        * apply ext_snoc; auto.
        * rewrite app_length. cbn [length]. lia.
      + cbn [app ptold ds_val]. rewrite Ev1. reflexivity.
  Qed.

  Lemma ptold_app : forall t1 t2 w, ptold visitor w (t1 ++ t2) =
    match ptold visitor w t1 with
    | Ok (inl w) => ptold visitor w t2
    | Ok (inr b) => Ok (inr b)
    | Fail f => Fail f
    end.
  Proof.
    induction t1 as [|e t1 IH]; intros t2 w; cbn [app ptold]; auto.
    destruct (visitor w e); auto. destruct e; auto.
  Qed.

  Lemma runs_follow : forall pre cs tr, runs pre cs tr -> incl cs board ->
    forall st, Rep st pre [] ->
    match ptold visitor (ds_val st) tr with
    | Ok (inl w) => exists st',
        fold_return (pdfs_visitor m nb nb_next visit visited visitor) cs st = Ok (inl st') /\ ds_val st' = w
    | Ok (inr b) => fold_return (pdfs_visitor m nb nb_next visit visited visitor) cs st = Ok (inr b)
    | Fail f => fold_return (pdfs_visitor m nb nb_next visit visited visitor) cs st = Fail f
    end.
  Proof.
    induction 1; intros Hcs st R.
    - cbn [ptold fold_return]. eauto.
    - assert (Hc : In c board) by (apply Hcs; left; auto).
      assert (Hcs' : incl cs board) by (intros y Hy; apply Hcs; right; auto).
      destruct (Hvisit _ _ _ (rp_disc _ _ _ R) Hc) as (b & vm & E & Hb & HV).
      assert (b = false) as -> by (destruct b; auto; exfalso; apply Hb; auto).
      set (st1 := mkDfs (ds_open st) vm (ds_fin st) (ds_time st) (ds_val st) : state).
      assert (R1 : Rep st1 pre []).
      { destruct R. constructor; cbn [ds_open ds_disc ds_fin ds_time ds_val st1]; auto.
        eapply VRext; [exact HV|]. intros x. cbn [In]. split; [intros [<-|Hx]; auto|auto]. }
      assert (Es : pdfs_visitor m nb nb_next visit visited visitor st c = Ok (inl st1)).
      { unfold pdfs_visitor, pdfs_enter. rewrite E. cbn [bind]. fold st1.
        apply (loop_rounds _ 0%nat); [|reflexivity]. apply R_done.
        destruct R1. inversion rp_open0 as [Ho|]. unfold pdfs_round.
        change (ds_open st1) with (ds_open st). rewrite <- Ho. reflexivity. }
      cbn [fold_return]. rewrite Es. cbn [bind].
      change (ds_val st) with (ds_val st1). apply IHruns; auto.
    - assert (Hc : In c board) by (apply Hcs; left; auto).
      assert (Hcs' : incl cs board) by (intros y Hy; apply Hcs; right; auto).
      pose proof (rep_enter st pre [] c R Hc H) as HE. cbn [ptold fold_return].
      assert (GO : forall st1, pdfs_enter nb visit visitor st c = Ok (inl st1) ->
        Rep st1 (pre ++ [Discover c (clock pre)]) [(c, looks pre (clock pre) c)] ->
        match ptold visitor (ds_val st1) (t1 ++ t2) with
        | Ok (inl w) => exists st',
            fold_return (pdfs_visitor m nb nb_next visit visited visitor) (c :: cs) st = Ok (inl st') /\
            ds_val st' = w
        | Ok (inr b) => fold_return (pdfs_visitor m nb nb_next visit visited visitor) (c :: cs) st = Ok (inr b)
        | Fail f => fold_return (pdfs_visitor m nb nb_next visit visited visitor) (c :: cs) st = Fail f
        end).
      { intros st1 E1 R1. cbn [fold_return]. unfold pdfs_visitor at 1 3 5. rewrite E1. cbn [bind].
        destruct (run_follows _ _ _ _ H1) with (st := st1) as (k & Hk & HR); auto.
        { constructor; [|constructor]. cbn [fst snd]. split; auto. apply looks_incl. }
        rewrite ptold_app. destruct (ptold visitor (ds_val st1) t1) as [[w3|b]|f].
        - destruct HR as (st' & HR & RR & Hw). rewrite (loop_rounds _ _ _ _ HR) by lia. cbn [bind].
          rewrite <- app_assoc in RR. cbn [app] in RR. rewrite <- Hw. apply IHruns; auto.
        - rewrite (loop_rounds _ _ _ _ HR) by lia. reflexivity.
        - rewrite (loop_rounds _ _ _ _ HR) by lia. reflexivity. }
      destruct (visitor (ds_val st) (Discover c (clock pre))) as [w|w|b].
      + destruct HE as (st1 & E1 & Hw1 & R1). rewrite <- Hw1. apply GO; auto.
      + destruct HE as (st1 & E1 & Hw1 & R1). rewrite <- Hw1. apply GO; auto.
      + unfold pdfs_visitor at 1. rewrite HE. reflexivity.
  Qed.
End Any.

(** ** By a rule *)

Section Rule.
  Context {C : Type} (stop : C -> bool) (skip : C -> C -> bool).

  Lemma ruled_after : forall V B (visitor : V -> DfsEvent C -> Control V B), Ruled stop skip visitor ->
    forall tr w, exists w', state_after visitor w tr = Some w' /\ ptold visitor w tr = Ok (inl w').
  Proof.
    intros V B visitor HR. induction tr as [|e tr IH]; intros w; cbn [state_after ptold]; [eauto|].
    destruct (HR w e) as (w1 & E1). rewrite E1. destruct (IH w1) as (w2 & E2 & E3).
    exists w2. destruct (ruled stop skip e) eqn:Er; auto. destruct e; auto. discriminate.
  Qed.

  Lemma ruled_by : forall V B (visitor : V -> DfsEvent C -> Control V B) w, Ruled stop skip visitor ->
    forall pre e, ruled stop skip e = pruned_by visitor w pre e.
  Proof.
    intros V B visitor w HR pre e. unfold pruned_by.
    destruct (ruled_after _ _ _ HR pre w) as (w1 & -> & _).
    destruct (HR w1 e) as (w2 & ->). destruct (ruled stop skip e); reflexivity.
  Qed.

  Lemma in_discovered : forall (tr : list (DfsEvent C)) c, In c (discovered tr) ->
    exists pre t post, tr = pre ++ Discover c t :: post.
  Proof.
    induction tr as [|e tr IH]; intros c H; [destruct H|].
    destruct e as [x t| | | |]; cbn [discovered] in H;
      try (destruct (IH c H) as (p & t' & q & ->); eexists (_ :: p), t', q; reflexivity).
    destruct H as [->|H]; [exists [], t, tr; reflexivity|].
    destruct (IH c H) as (p & t' & q & ->). exists (Discover x t :: p), t', q. reflexivity.
  Qed.

  Lemma in_finished : forall (tr : list (DfsEvent C)) c, In c (finished tr) ->
    exists pre t post, tr = pre ++ Finish c t :: post.
  Proof.
    induction tr as [|e tr IH]; intros c H; [destruct H|].
    destruct e as [| | | |x t]; cbn [finished] in H;
      try (destruct (IH c H) as (p & t' & q & ->); eexists (_ :: p), t', q; reflexivity).
    destruct H as [->|H]; [exists [], t, tr; reflexivity|].
    destruct (IH c H) as (p & t' & q & ->). exists (Finish x t :: p), t', q. reflexivity.
  Qed.

  Lemma in_seen : forall (tr : list (DfsEvent C)) a b, In (a, b) (edges_seen tr) ->
    exists pre e post, tr = pre ++ e :: post /\ edge_event a b e.
  Proof.
    induction tr as [|e tr IH]; intros a b H; [destruct H|].
    assert (K : In (a, b) (edges_seen tr) \/ edge_event a b e).
    { destruct e; cbn [edges_seen] in H; auto; destruct H as [[= <- <-]|H]; auto; right; unfold edge_event; auto. }
    destruct K as [K|K]; [|exists [], e, tr; auto].
    destruct (IH a b K) as (p & e' & q & -> & He). exists (e :: p), e', q. auto.
  Qed.

  Lemma open_in : forall (tr : list (DfsEvent C)) s c, In c (open_after s tr) ->
    In c s \/ In c (discovered tr).
  Proof.
    induction tr as [|[] tr IH]; intros s x H; cbn [open_after discovered] in *; auto.
    - apply IH in H. cbn [In] in *. tauto.
    - apply IH in H as [H|H]; auto. left. destruct s; [destruct H|right; auto].
  Qed.

  Lemma from_all : forall (a : C) es l b, From a es l -> In b l -> In (a, b) es.
  Proof. induction 1; cbn [In]; intuition (subst; auto). Qed.

  Lemma rule_leads : forall nbs nodes starts tr,
    PrunedFirst (fun _ => ruled stop skip) nbs nodes starts tr ->
    forall c, In c (discovered tr) <-> Leads (allowed stop skip nbs) nodes starts c.
  Proof.
    intros nbs nodes starts tr H. destruct H as [Hp He Ho Hn Hs Hf _]. intros c. split.
    - (* each is led to *)
      assert (K : forall n pre c t post, (length pre <= n)%nat -> tr = pre ++ Discover c t :: post ->
        Leads (allowed stop skip nbs) nodes starts c).
      { induction n as [n IH] using lt_wf_ind. intros pre x t post Hl E.
        assert (Hx : In x nodes).
        { apply Hn. rewrite E, discovered_app. apply in_or_app. right. left. auto. }
        destruct (Hp _ _ _ E) as (_ & [(_ & bf & af & Es & _)|(pre' & p & -> & Ep)]).
        - apply leads_start; auto. rewrite Es. apply in_or_app. right. left. auto.
        - cbn [ruled] in Ep. rewrite <- app_assoc in E. cbn [app] in E.
          destruct (Hp _ _ _ E) as (Hh & Hc & Hb & _).
          assert (Hd : In p (discovered pre')).
          { destruct (open_in pre' [] p) as [[]|]; auto.
            destruct (open_after [] pre'); [discriminate|]. injection Hh as ->. left. auto. }
          destruct (in_discovered _ _ Hd) as (p1 & t1 & q1 & E1).
          assert (Hst : stop p = false).
          { destruct (stop p) eqn:Est; auto. destruct Hc. exists p1, t1, q1. auto. }
          apply leads_step with (c := p); auto.
          + rewrite app_length in Hl. cbn [length] in Hl.
            apply (IH (length p1)) with (pre := p1) (t := t1) (post := q1 ++ TreeEdge p x :: Discover x t :: post);
              [|lia|].
            * rewrite E1, app_length in Hl. cbn [length] in Hl. lia.
            * rewrite E, E1. rewrite <- app_assoc. reflexivity.
          + unfold allowed. rewrite Hst. apply filter_In. rewrite Ep. auto. }
      intros Hc. destruct (in_discovered _ _ Hc) as (p & t & q & E). exact (K _ _ _ _ _ (le_n _) E).
    - (* and what is led to is discovered *)
      induction 1 as [c Hc _|c x Hc IHc Hx Hxn]; [apply Hs; auto|].
      unfold allowed in Hx. destruct (stop c) eqn:Est; [destruct Hx|].
      apply filter_In in Hx as [Hx Hsk]. apply negb_true_iff in Hsk.
      assert (Hcf : In c (finished tr)) by (rewrite Hf; auto).
      destruct (in_finished _ _ Hcf) as (p & t & q & E).
      destruct (Hp _ _ _ E) as (_ & _ & _ & Hfr).
      assert (Hnc : ~ Cut (fun _ => ruled stop skip) p c).
      { intros (p1 & t1 & q1 & _ & K). cbn [ruled] in K. congruence. }
      pose proof (from_all _ _ _ x (Hfr Hnc) Hx) as Hin.
      destruct (in_seen _ _ _ Hin) as (p1 & e & q1 & E1 & Hev).
      assert (E2 : tr = p1 ++ e :: (q1 ++ Finish c t :: q)) by (rewrite E, E1, <- app_assoc; reflexivity).
      destruct Hev as [->|[->| ->]].
      + destruct (He _ _ _ _ E2 Hxn Hsk) as (t2 & q2 & E3). rewrite E2, E3, discovered_app.
        apply in_or_app. right. cbn [discovered]. left. auto.
      + destruct (Hp _ _ _ E2) as (_ & _ & _ & Hop). apply open_in in Hop as [[]|Hop].
        rewrite E2, discovered_app. apply in_or_app. auto.
      + destruct (Hp _ _ _ E2) as (_ & _ & _ & Hfi). rewrite <- Hf. rewrite E2, finished_app.
        apply in_or_app. auto.
  Qed.
End Rule.

Lemma clock_both : forall C (tr : list (DfsEvent C)),
  length (times tr) = (length (discovered tr) + length (finished tr))%nat.
Proof. induction tr as [|[] tr IH]; cbn [times discovered finished length]; lia. Qed.

Section Search.
  Context {C It Ids VM : Type} (m : mode) (nb : C -> It)
    (nb_next : C -> It -> outcome (option C * It))
    (visit : VM -> C -> outcome (bool * VM)) (visited : VM -> C -> outcome bool)
    (dec : forall a b : C, {a = b} + {a <> b})
    (board : list C) (raw : C -> list C) (VR : VM -> list C -> Prop)
    (Hnb : forall c, In c board -> Drains (nb_next c) (nb c) (raw c))
    (Hfew : forall c, In c board -> (length (raw c) <= 8)%nat)
    (Hoff : forall c x, In c board -> In x (raw c) -> ~ In x board -> forall vm,
       visit vm x = Ok (false, vm) /\ visited vm x = Ok false)
    (Hvisit : forall vm M c, VR vm M -> In c board ->
       exists b vm', visit vm c = Ok (b, vm') /\ (b = true <-> ~ In c M) /\ VR vm' (c :: M))
    (Hvisited : forall vm M c, VR vm M -> In c board ->
       exists b, visited vm c = Ok b /\ (b = true <-> In c M))
    (VRext : forall vm M M', VR vm M -> (forall c, In c M <-> In c M') -> VR vm M')
    (Hlen : Z.of_nat (length board) <= 2 ^ 63)
    (fresh : VM) (Hfresh : VR fresh [])
    (it : Ids) (next : Ids -> outcome (option C * Ids)) (starts : list C)
    (Hstarts : Drains next it starts) (Hshort : Z.of_nat (length starts) + 1 < 2 ^ 72)
    (Hon : incl starts board).

  Theorem any_pdfs : forall V B (visitor : V -> DfsEvent C -> Control V B) w prunes,
    (forall pre e, prunes pre e = pruned_by visitor w pre e) ->
    exists tr, PrunedFirst prunes raw board starts tr /\
      pruning_search m nb nb_next visit visited visitor fresh it next w = ptold visitor w tr.
  Proof.
    intros V B visitor w prunes Hpr.
    destruct (runs_exists nb nb_next visit visited dec board raw VR Hnb Hfew Hoff Hvisit Hvisited VRext
      Hlen starts prunes) with
      (cs := starts) (pre := @nil (DfsEvent C)) (before := @nil C) as (tr & R & (A & Hnx) & F); auto.
    - intros c [].
    - apply aj_start.
    - cbn [app] in *. exists tr. split.
      + destruct A. cbn [map] in ai_open0. rewrite <- ai_open0 in *.
        assert (Pm : Permutation (finished tr) (discovered tr)).
        { apply NoDup_Permutation; auto. intros c. rewrite ai_parts0. cbn [In]. tauto. }
        constructor; auto.
        rewrite ai_times0 at 1. f_equal. rewrite clock_both.
        rewrite (Permutation_length Pm). lia.
      + unfold pruning_search. rewrite (for_return_any _ _ _ _ _ _ _ _ _ Hstarts Hshort).
        pose proof (runs_follow m nb nb_next visit visited dec board raw VR Hnb Hfew Hoff Hvisit
          Hvisited VRext starts prunes visitor w Hpr _ _ _ R Hon (mkDfs [] fresh fresh 0 w)) as HF.
        cbn [ds_val] in HF. specialize (HF ltac:(constructor; cbn; auto)).
        destruct (ptold visitor w tr) as [[w'|b]|f].
        * destruct HF as (st' & E & Hw). rewrite E. cbn [bind]. rewrite Hw. reflexivity.
        * rewrite HF. reflexivity.
        * rewrite HF. reflexivity.
  Qed.

  Theorem any_ruled : forall stop skip V B (visitor : V -> DfsEvent C -> Control V B) w,
    Ruled stop skip visitor -> exists tr w', PrunedFirst (fun _ => ruled stop skip) raw board starts tr /\
      pruning_search m nb nb_next visit visited visitor fresh it next w = Ok (inl w') /\
      state_after visitor w tr = Some w' /\
      forall c, In c (discovered tr) <-> Leads (allowed stop skip raw) board starts c.
  Proof.
    intros stop skip V B visitor w HR.
    destruct (any_pdfs V B visitor w (fun _ => ruled stop skip) (ruled_by stop skip _ _ visitor w HR))
      as (tr & H1 & H2).
    destruct (ruled_after stop skip _ _ _ HR tr w) as (w' & H3 & H4).
    exists tr, w'. split; auto. split; [congruence|]. split; auto. apply rule_leads. auto.
  Qed.
End Search.
