(** * AnySearch: both searches on graphs whose [neighbors] may name things that are not nodes
    and where not every node is found. *)

From Verif Require Import Machine Traverse Basics TraverseProofs Spec11.
From Coq Require Import ZifyBool ZifyNat Sorted.

Lemma for_each_exact : forall It X S (next : It -> outcome (option X * It)) it l
  (body : S -> X -> outcome S) s, Drains next it l -> Z.of_nat (length l) + 1 < 2 ^ 72 ->
  for_each next it body s = fold_outcome body l s.
Proof.
  intros It X S next it l body s HD HL. destruct (fold_outcome body l s) as [s'|f] eqn:EF.
  - eapply for_each_fold; eauto.
  - destruct HD as (it1 & it2 & HC & HN & _). unfold for_each.
    enough (HR : exists n, (n <= length l)%nat /\ Rounds (fun st : It * S =>
      let! (x, it') := next (fst st) in
      match x with
      | None => Ok (inr (snd st))
      | Some x => let! s' := body (snd st) x in Ok (inl (it', s'))
      end) n (it, s) (Fail f)).
    { destruct HR as (n & Hn & HR). eapply loop_rounds; [exact HR|lia]. }
    clear HL HN. revert s EF. induction HC as [it|it x it' l it3 H HC IH]; intros s EF; [discriminate|].
    cbn [fold_outcome] in EF. destruct (body s x) as [s1|f1] eqn:Eb; cbn [bind] in EF.
    + destruct (IH s1 EF) as (n & Hn & HR). exists (Datatypes.S n). split; [cbn [length]; lia|].
      eapply R_more; [|exact HR]. cbn [fst snd]. rewrite H. cbn [bind fst snd]. rewrite Eb. reflexivity.
    + injection EF as <-. exists 0%nat. split; [lia|]. apply R_fail. cbn [fst snd]. rewrite H.
      cbn [bind fst snd]. rewrite Eb. reflexivity.
Qed.

Lemma Drains_sim : forall S1 S2 X (n1 : S1 -> outcome (option X * S1))
  (n2 : S2 -> outcome (option X * S2)) (R : S1 -> S2 -> Prop),
  (forall a b x a', R a b -> n1 a = Ok (x, a') -> exists b', n2 b = Ok (x, b') /\ R a' b') ->
  (forall b b', n2 b = Ok (None, b') -> n2 b' = Ok (None, b')) ->
  forall a b l, R a b -> Drains n1 a l -> Drains n2 b l.
Proof.
  intros S1 S2 X n1 n2 R SIM FUS a b l HR (a1 & a2 & HC & HN & HF). clear HF. revert b HR.
  induction HC as [a|a x a' l a3 H HC IH]; intros b HR.
  - destruct (SIM _ _ _ _ HR HN) as (b2 & E1 & _).
    exists b, b2. split; [constructor|]. split; auto. eapply FUS; eauto.
  - destruct (SIM _ _ _ _ HR H) as (b2 & E1 & R2). eapply Drains_cons; eauto.
Qed.

Section Any.
  Context {C It VM : Type} (nb : C -> It) (nb_next : C -> It -> outcome (option C * It))
    (visit : VM -> C -> outcome (bool * VM)) (visited : VM -> C -> outcome bool)
    (dec : forall a b : C, {a = b} + {a <> b})
    (board : list C) (raw : C -> list C) (VR : VM -> list C -> Prop)
    (Hnb : forall c, In c board -> Drains (nb_next c) (nb c) (raw c))
    (Hsize : forall c, In c board -> Z.of_nat (length (raw c)) + 1 < 2 ^ 72)
    (Hoff : forall c x, In c board -> In x (raw c) -> ~ In x board -> forall vm,
       visit vm x = Ok (false, vm) /\ visited vm x = Ok false)
    (Hvisit : forall vm M c, VR vm M -> In c board ->
       exists b vm', visit vm c = Ok (b, vm') /\ (b = true <-> ~ In c M) /\ VR vm' (c :: M))
    (Hvisited : forall vm M c, VR vm M -> In c board ->
       exists b, visited vm c = Ok b /\ (b = true <-> In c M))
    (VRext : forall vm M M', VR vm M -> (forall c, In c M <-> In c M') -> VR vm M')
    (start : C) (Hstart : In start board).

  Definition onb (c : C) : bool := if in_dec dec c board then true else false.
  Lemma onb_in : forall c, onb c = true <-> In c board.
  Proof. intros c. unfold onb. destruct (in_dec dec c board); split; auto; discriminate. Qed.

  Definition nbs (c : C) : list C := filter onb (raw c).
  Lemma in_nbs : forall c x, In x (nbs c) <-> In x (raw c) /\ In x board.
  Proof. intros c x. unfold nbs. rewrite filter_In, onb_in. tauto. Qed.

  (** ** Layers *)

  Fixpoint layer (k : nat) : list C :=
    match k with
    | O => [start]
    | S k => layer k ++ flat_map nbs (layer k)
    end.

  Lemma layer_in : forall k, incl (layer k) board.
  Proof.
    induction k as [|k IH]; cbn [layer].
    - intros x [<-|[]]; auto.
    - intros x Hx. apply in_app_or in Hx. destruct Hx as [Hx|Hx]; auto.
      apply in_flat_map in Hx. destruct Hx as (y & _ & Hx). apply in_nbs in Hx. tauto.
  Qed.

  Lemma layer_reached : forall k c, In c (layer k) <->
    exists n, (n <= k)%nat /\ Reached nb nb_next board start n c.
  Proof.
    induction k as [|k IH]; intros c; cbn [layer].
    - split.
      + intros [<-|[]]. exists 0%nat. split; [lia|constructor].
      + intros (n & Hn & H). assert (n = 0%nat) by lia. subst n. inversion H; subst. left; auto.
    - rewrite in_app_iff, in_flat_map. split.
      + intros [H|(y & Hy & H)].
        * apply IH in H. destruct H as (n & Hn & H). exists n. split; [lia|auto].
        * pose proof (layer_in k y Hy) as Hyb. apply IH in Hy. destruct Hy as (n & Hn & Hy).
          apply in_nbs in H. exists (S n). split; [lia|].
          eapply reached_step; [exact Hy|apply Hnb; auto|tauto|tauto].
      + intros (n & Hn & H). inversion H as [|n' b c' l HR HD H1 H2]; subst.
        * left. apply IH. exists 0%nat. split; [lia|constructor].
        * right. exists b. assert (Hb : In b (layer k)) by (apply IH; exists n'; split; [lia|auto]).
          split; auto. apply in_nbs. split; auto.
          rewrite <- (Drains_det _ _ _ _ HD (Hnb b (layer_in k b Hb))). auto.
  Qed.

  Lemma layer_le : forall k j, (k <= j)%nat -> incl (layer k) (layer j).
  Proof.
    intros k j H x Hx. apply layer_reached in Hx. destruct Hx as (n & Hn & Hx).
    apply layer_reached. exists n. split; [lia|auto].
  Qed.

  Definition cnt (k : nat) : nat := length (nodup dec (layer k)).

  Lemma layer_stops : forall k, incl (layer (S k)) (layer k) \/ (k < cnt k)%nat.
  Proof.
    induction k as [|k IH].
    - right. cbn. lia.
    - destruct IH as [IH|IH].
      + left. intros x Hx. cbn [layer] in Hx. apply in_app_or in Hx. destruct Hx as [Hx|Hx]; auto.
        change (layer k ++ flat_map nbs (layer k)) with (layer (S k)) in Hx.
        apply in_flat_map in Hx. destruct Hx as (y & Hy & Hx). cbn [layer]. apply in_or_app. right.
        apply in_flat_map. exists y. split; auto.
      + destruct (le_lt_dec (cnt (S k)) (cnt k)) as [H|H]; [|right; lia]. left.
        assert (HI : incl (layer (S k)) (layer k)).
        { intros x Hx. rewrite <- (nodup_In dec). apply (NoDup_length_incl (l := nodup dec (layer k))
            (l' := nodup dec (layer (S k)))).
          - apply NoDup_nodup.
          - exact H.
          - intros y Hy. rewrite nodup_In. rewrite nodup_In in Hy.
            apply (layer_le k (S k)); auto.
          - rewrite nodup_In. auto. }
        intros x Hx. cbn [layer] in Hx. apply in_app_or in Hx. destruct Hx as [Hx|Hx]; auto.
        change (layer k ++ flat_map nbs (layer k)) with (layer (S k)) in Hx.
        apply in_flat_map in Hx. destruct Hx as (y & Hy & Hx). cbn [layer]. apply in_or_app. right.
        apply in_flat_map. exists y. split; auto.
  Qed.

  Notation K := (length board).

  Lemma layer_closed : forall c c', In c (layer K) -> In c' (nbs c) -> In c' (layer K).
  Proof.
    intros c c' Hc Hc'. destruct (layer_stops K) as [H|H].
    - apply H. cbn [layer]. apply in_or_app. right. apply in_flat_map. eauto.
    - exfalso. unfold cnt in H.
      assert (Hl : (length (nodup dec (layer K)) <= K)%nat); [|lia].
      apply NoDup_incl_length; [apply NoDup_nodup|]. intros x Hx. rewrite nodup_In in Hx.
      eapply layer_in; eauto.
  Qed.

  Lemma reached_layer : forall c, (exists n, Reached nb nb_next board start n c) <-> In c (layer K).
  Proof.
    intros c. split.
    - intros (n & H). induction H as [|n b c l H IH HD H1 H2].
      + apply (layer_le 0 K); [lia|left; auto].
      + apply (layer_closed b); auto. apply in_nbs. split; auto.
        rewrite <- (Drains_det _ _ _ _ HD (Hnb b (layer_in K b IH))). auto.
    - intros H. apply layer_reached in H. destruct H as (n & _ & H). eauto.
  Qed.

  (** The first layer from [k] on, among the next [fuel], that has [c]. *)
  Fixpoint first (c : C) (k fuel : nat) : nat :=
    match fuel with
    | O => k
    | S fuel => if in_dec dec c (layer k) then k else first c (S k) fuel
    end.
  Lemma first_spec : forall c fuel k, In c (layer (k + fuel)) ->
    In c (layer (first c k fuel)) /\ (forall j, (k <= j)%nat -> In c (layer j) -> (first c k fuel <= j)%nat).
  Proof.
    intros c. induction fuel as [|fuel IH]; intros k H; cbn [first].
    - rewrite Nat.add_0_r in H. auto.
    - destruct (in_dec dec c (layer k)) as [Hk|Hk]; [auto|].
      destruct (IH (S k)) as [H1 H2]; [rewrite Nat.add_succ_l, <- Nat.add_succ_r; auto|].
      split; auto. intros j Hj H3. apply H2; auto.
      destruct (Nat.eq_dec j k) as [->|]; [contradiction|lia].
  Qed.
  Definition lev (c : C) : nat := first c 0 K.
  Lemma lev_in : forall c, In c (layer K) -> In c (layer (lev c)).
  Proof. intros c H. apply (first_spec c K 0 H). Qed.
  Lemma lev_le : forall c j, In c (layer j) -> (lev c <= j)%nat.
  Proof.
    intros c j H. apply (first_spec c K 0); [|lia|auto]. cbn [Nat.add]. apply reached_layer.
    apply layer_reached in H. destruct H as (n & _ & H). eauto.
  Qed.
  Lemma lev_reached : forall c n, Reached nb nb_next board start n c -> (lev c <= n)%nat.
  Proof.
    intros c n H. apply lev_le. apply layer_reached. exists n. split; auto.
  Qed.

  (** ** The graph of the on-board neighbours, as an iterator over lists *)

  Notation found := (layer K).
  Definition pop (c : C) (l : list C) : outcome (option C * list C) :=
    if in_dec dec c found then
      match l with [] => Ok (None, []) | x :: l => Ok (Some x, l) end
    else Fail FPanic.

  Lemma pop_drains : forall c, In c found -> forall l, Drains (pop c) l l.
  Proof.
    intros c Hc. assert (HP : forall l, pop c l =
      match l with [] => Ok (None, []) | x :: l => Ok (Some x, l) end).
    { intros l. unfold pop. destruct (in_dec dec c found); [auto|contradiction]. }
    induction l as [|x l IH].
    - exists [], []. repeat split; try apply HP. constructor.
    - eapply Drains_cons; [|exact IH]. rewrite HP. reflexivity.
  Qed.

  Lemma nbs_few : forall c, In c found -> Z.of_nat (length (nbs c)) + 1 < 2 ^ 72.
  Proof.
    intros c Hc. apply layer_in in Hc. apply Hsize in Hc.
    assert (H : (length (nbs c) <= length (raw c))%nat); [|lia].
    unfold nbs. clear. induction (raw c) as [|x l IH]; cbn [filter length]; [lia|].
    destruct (onb x); cbn [length]; lia.
  Qed.

  Notation f := (fun c => Z.of_nat (lev c)).

  Lemma f_start : f start = 0.
  Proof. assert (H : (lev start <= 0)%nat) by (apply lev_le; left; auto). lia. Qed.
  Lemma f_zero : forall c, In c found -> f c = 0 -> c = start.
  Proof.
    intros c Hc H. apply lev_in in Hc. replace (lev c) with 0%nat in Hc by lia.
    destruct Hc as [<-|[]]. auto.
  Qed.
  Lemma f_step : forall c c', In c found -> In c' (nbs c) -> f c' <= f c + 1.
  Proof.
    intros c c' Hc Hc'. cbv beta. enough (H : (lev c' <= S (lev c))%nat) by (clear - H; lia).
    apply lev_le. cbn [layer]. apply in_or_app. right. apply in_flat_map. exists c. split; auto.
    apply lev_in; auto.
  Qed.
  Lemma f_desc : forall c, In c found -> 0 < f c ->
    exists p, In p found /\ In c (nbs p) /\ f p <= f c - 1.
  Proof.
    intros c Hc H. cbv beta in *. pose proof (lev_in c Hc) as Hl.
    destruct (lev c) as [|k] eqn:Ek; [lia|]. cbn [layer] in Hl. apply in_app_or in Hl.
    destruct Hl as [Hl|Hl]; [apply lev_le in Hl; lia|]. apply in_flat_map in Hl.
    destruct Hl as (p & Hp & Hl). pose proof (lev_le p k Hp) as Hpk.
    exists p. split; [|split; [auto|lia]]. apply reached_layer. apply layer_reached in Hp.
    destruct Hp as (n & _ & Hp). eauto.
  Qed.

  Lemma visit_found : forall vm M c, VR vm M -> In c found ->
    exists b vm', visit vm c = Ok (b, vm') /\ (b = true <-> ~ In c M) /\ VR vm' (c :: M).
  Proof. intros vm M c HV Hc. apply Hvisit; auto. eapply layer_in; eauto. Qed.
  Lemma visited_found : forall vm M c, VR vm M -> In c found ->
    exists b, visited vm c = Ok b /\ (b = true <-> In c M).
  Proof.
    intros vm M c HV Hc. apply Hvisited; auto. eapply layer_in; eauto.
  Qed.

  Lemma start_found : In start found.
  Proof. apply reached_layer. exists 0%nat. constructor. Qed.

  Lemma pop_unfound : forall n S (body : S -> C -> outcome S) l s, ~ In n found ->
    for_each (pop n) l body s = Fail FPanic.
  Proof.
    intros n S body l s Hn. unfold for_each. eapply loop_rounds with (n := 0%nat); [|reflexivity].
    apply R_fail. unfold pop. cbn [fst snd]. destruct (in_dec dec n found); [contradiction|].
    reflexivity.
  Qed.

  (** ** Breadth-first search *)

  Lemma push_filter : forall l st, (forall x, In x l -> ~ In x board -> forall vm,
      visit vm x = Ok (false, vm)) ->
    fold_outcome (push visit) l st = fold_outcome (push visit) (filter onb l) st.
  Proof.
    induction l as [|x l IH]; intros [q vm] H; auto. cbn [filter].
    assert (H' : forall y, In y l -> ~ In y board -> forall vm, visit vm y = Ok (false, vm))
      by (intros y Hy; apply H; right; auto).
    destruct (onb x) eqn:Ex; cbn [fold_outcome].
    - destruct (push visit (q, vm) x); cbn [bind]; auto.
    - unfold push at 1. cbn [fst snd]. rewrite (H x); [|left; auto|].
      + cbn [bind]. apply IH; auto.
      + intros Hx. apply onb_in in Hx. congruence.
  Qed.

  Lemma bfs_same : forall st x, bfs_next nbs pop visit st = Ok x -> bfs_next nb nb_next visit st = Ok x.
  Proof.
    intros [q vm] x. unfold bfs_next. cbn [fst snd]. destruct q as [|n q]; auto.
    destruct (in_dec dec n found) as [Hn|Hn].
    - rewrite (for_each_exact _ _ _ _ _ _ (push visit) _ (pop_drains n Hn (nbs n)) (nbs_few n Hn)).
      pose proof (layer_in _ _ Hn) as Hnb'.
      rewrite (for_each_exact _ _ _ _ _ _ (push visit) _ (Hnb n Hnb') (Hsize n Hnb')).
      rewrite (push_filter (raw n)); auto. intros y Hy Hyb vm'. apply (Hoff n y Hnb' Hy Hyb vm').
    - rewrite pop_unfound by auto. discriminate.
  Qed.

  Lemma bfs_any : forall fresh, VR fresh [] -> exists it l,
    bfs_new visit fresh start = Ok it /\ Drains (bfs_next nb nb_next visit) it l /\
    hd_error l = Some start /\ NoDup l /\
    (forall c, In c l <-> exists n, Reached nb nb_next board start n c) /\
    forall l1 a l2 b l3 n, l = l1 ++ a :: l2 ++ b :: l3 -> Reached nb nb_next board start n b ->
      exists k, (k <= n)%nat /\ Reached nb nb_next board start k a.
  Proof.
    intros fresh HV.
    destruct (bfs_all nbs pop visit dec found nbs VR (fun c Hc => pop_drains c Hc (nbs c)) nbs_few
      layer_closed visit_found VRext start start_found f f_start (fun c => Zle_0_nat (lev c))
      f_zero f_step f_desc fresh HV) as (it & l & E & HD & HN & Hin & HS & l' & Hl).
    exists it, l. split; auto. split.
    { eapply (Drains_sim _ _ _ _ (bfs_next nb nb_next visit) eq); [| |reflexivity|exact HD].
      - intros a b x a1 <- Ha. exists a1. split; auto. apply bfs_same; auto.
      - intros [q vm] b'. unfold bfs_next at 1. cbn [fst snd]. destruct q as [|n q].
        + intros Eb. injection Eb as <-. reflexivity.
        + destruct (for_each _ _ _ _); cbn [bind]; discriminate. }
    split; [rewrite Hl; reflexivity|]. split; auto. split.
    { intros c. rewrite Hin. symmetry. apply reached_layer. }
    intros l1 a l2 b l3 n Eq Hb. rewrite Eq in HS. apply sorted_split in HS. unfold le_f in HS.
    assert (Ha : In a found).
    { apply Hin. rewrite Eq. apply in_or_app. right. left; auto. }
    apply lev_in in Ha. apply layer_reached in Ha. destruct Ha as (k & Hk & Ha).
    exists k. split; auto. apply lev_reached in Hb. lia.
  Qed.

  (** ** Depth-first search *)

  Definition idle (x : C) : Prop := forall vm, visit vm x = Ok (false, vm) /\ visited vm x = Ok false.

  Definition same_stack (a b : list C * VM) : Prop :=
    fst a = filter onb (fst b) /\ snd a = snd b /\
    forall x, In x (fst b) -> ~ In x board -> idle x.

  Lemma dpush_filter : forall vm l st st', (forall x, In x l -> ~ In x board -> idle x) ->
    fold_outcome (dfs_push visited vm) (filter onb l) (filter onb st) = Ok st' ->
    exists st2, fold_outcome (dfs_push visited vm) l st = Ok st2 /\ st' = filter onb st2 /\
      forall x, In x st2 -> In x l \/ In x st.
  Proof.
    intros vm. induction l as [|x l IH]; intros st st' H HF.
    - cbn [filter fold_outcome] in *. injection HF as <-. exists st. auto.
    - cbn [filter] in HF. assert (H' : forall y, In y l -> ~ In y board -> idle y)
        by (intros y Hy; apply H; right; auto).
      cbn [fold_outcome]. destruct (onb x) eqn:Ex.
      + cbn [fold_outcome] in HF. unfold dfs_push at 1. unfold dfs_push at 1 in HF.
        destruct (visited vm x) as [v|]; [|discriminate]. cbn [bind] in *. destruct v.
        * destruct (IH st st' H' HF) as (st2 & E1 & E2 & E3). exists st2. split; auto. split; auto.
          intros y Hy. destruct (E3 y Hy); auto. left; right; auto.
        * destruct (IH (x :: st) st' H') as (st2 & E1 & E2 & E3).
          { cbn [filter]. rewrite Ex. exact HF. }
          exists st2. split; auto. split; auto.
          intros y Hy. destruct (E3 y Hy) as [|[<-|]]; auto; left; [right|left]; auto.
      + unfold dfs_push at 1. destruct (H x (or_introl eq_refl)) with (vm := vm) as [_ Hv].
        { intros Hx. apply onb_in in Hx. congruence. }
        rewrite Hv. cbn [bind]. destruct (IH (x :: st) st' H') as (st2 & E1 & E2 & E3).
        { cbn [filter]. rewrite Ex. exact HF. }
        exists st2. split; auto. split; auto.
        intros y Hy. destruct (E3 y Hy) as [|[<-|]]; auto; left; [right|left]; auto.
  Qed.

  Lemma dfs_same : forall st2 vm x st' vm', (forall y, In y st2 -> ~ In y board -> idle y) ->
    dfs_pop nbs pop visit visited (filter onb st2) vm = Ok (x, (st', vm')) ->
    exists st2', dfs_pop nb nb_next visit visited st2 vm = Ok (x, (st2', vm')) /\
      st' = filter onb st2' /\ forall y, In y st2' -> ~ In y board -> idle y.
  Proof.
    induction st2 as [|n st2 IH]; intros vm x st' vm' HI H.
    - cbn [filter dfs_pop] in *. injection H as <- <- <-. exists []. auto.
    - assert (HI' : forall y, In y st2 -> ~ In y board -> idle y)
        by (intros y Hy; apply HI; right; auto).
      cbn [filter] in H. cbn [dfs_pop]. destruct (onb n) eqn:En.
      + cbn [dfs_pop] in H. destruct (visit vm n) as [[new vm1]|]; [|discriminate].
        cbn [bind] in *. destruct new; [|apply IH; auto].
        apply onb_in in En. destruct (in_dec dec n found) as [Hn|Hn].
        * rewrite (for_each_exact _ _ _ _ _ _ (dfs_push visited vm1) _ (pop_drains n Hn (nbs n)) (nbs_few n Hn)) in H.
          rewrite (for_each_exact _ _ _ _ _ _ (dfs_push visited vm1) _ (Hnb n En) (Hsize n En)).
          destruct (fold_outcome (dfs_push visited vm1) (nbs n) (filter onb st2)) as [s3|] eqn:E3;
            [|discriminate].
          cbn [bind] in H. injection H as <- <- <-.
          destruct (dpush_filter vm1 (raw n) st2 s3) as (s4 & E4 & E5 & E6); auto.
          { intros y Hy Hyb vm2. apply (Hoff n y En Hy Hyb vm2). }
          rewrite E4. cbn [bind]. exists s4. split; auto. split; auto.
          intros y Hy Hyb. destruct (E6 y Hy) as [Hr|Hr]; auto.
          intros vm2. apply (Hoff n y En Hr Hyb vm2).
        * rewrite pop_unfound in H by auto. discriminate H.
      + destruct (HI n (or_introl eq_refl)) with (vm := vm) as [Hv _].
        { intros Hx. apply onb_in in Hx. congruence. }
        rewrite Hv. cbn [bind]. apply IH; auto.
  Qed.

  Lemma dfs_fused : forall st vm b', dfs_pop nb nb_next visit visited st vm = Ok (None, b') ->
    dfs_pop nb nb_next visit visited (fst b') (snd b') = Ok (None, b').
  Proof.
    induction st as [|n st IH]; intros vm b' H; cbn [dfs_pop] in H.
    - injection H as <-. reflexivity.
    - destruct (visit vm n) as [[new vm1]|]; [|discriminate]. cbn [bind] in H. destruct new.
      + destruct (for_each _ _ _ _); cbn [bind] in H; discriminate.
      + eapply IH; eauto.
  Qed.

  Lemma dfs_any : forall fresh, VR fresh [] -> exists l,
    Drains (dfs_next nb nb_next visit visited) (dfs_new fresh start) l /\
    hd_error l = Some start /\ NoDup l /\
    (forall c, In c l <-> exists n, Reached nb nb_next board start n c) /\
    forall l1 c l2, l = l1 ++ c :: l2 -> l1 <> [] ->
      exists p ln, In p l1 /\ Drains (nb_next p) (nb p) ln /\ In c ln.
  Proof.
    intros fresh HV.
    destruct (dfs_all nbs pop visit visited dec found nbs VR (fun c Hc => pop_drains c Hc (nbs c))
      nbs_few layer_closed visit_found visited_found VRext start start_found f f_start
      (fun c => Zle_0_nat (lev c)) f_zero f_step f_desc fresh HV) as (l & HD & HN & Hin & HG).
    exists l. split; [|split; [|split; [auto|split]]].
    - eapply (Drains_sim _ _ _ _ (dfs_next nb nb_next visit visited) same_stack);
        [| |  |exact HD].
      + intros [sa va] [sb vb] x [sa' va'] (E1 & E2 & E3) Ha. cbn [fst snd] in *. subst sa va.
        destruct (dfs_same sb vb x sa' va' E3 Ha) as (s2 & F1 & F2 & F3).
        exists (s2, va'). split; auto. split; auto.
      + intros [s v] b'. unfold dfs_next. cbn [fst snd]. apply dfs_fused.
      + split; [|split]; cbn [fst snd dfs_new].
        * cbn [filter]. rewrite (proj2 (onb_in start) Hstart). reflexivity.
        * reflexivity.
        * intros x [<-|[]] Hx. contradiction.
    - destruct l as [|c l]; [exfalso; apply (Hin start); apply start_found|].
      destruct (HG [] c l eq_refl) as [[_ ->]|(p & [] & _)]. reflexivity.
    - intros c. rewrite Hin. symmetry. apply reached_layer.
    - intros l1 c l2 Eq Hne. destruct (HG l1 c l2 Eq) as [[-> _]|(p & Hp & Hc)]; [congruence|].
      exists p, (raw p). split; auto. split.
      + apply Hnb. apply (layer_in K). apply Hin. rewrite Eq. apply in_or_app. auto.
      + apply in_nbs in Hc. tauto.
  Qed.
End Any.
