(** * DfsProofs: the events of [depth_first_search] on any graph, its neighbours possibly off the
    board. *)

From Verif Require Import Machine Traverse Clients Lattice SquareGraph Basics TraverseProofs
  ClientsProofs PostAny Spec11 DfsEvents Spec16.
From Coq Require Import ZifyBool ZifyNat Permutation.

Lemma drains_some : forall St X (next : St -> outcome (option X * St)) it x l,
  Drains next it (x :: l) -> exists it', next it = Ok (Some x, it') /\ Drains next it' l.
Proof.
  intros St X next it x l (a & b & H1 & H2 & H3). inversion H1; subst.
  exists it1. split; auto. exists a, b. auto.
Qed.

Lemma drains_none : forall St X (next : St -> outcome (option X * St)) it,
  Drains next it [] -> exists it', next it = Ok (None, it').
Proof. intros St X next it (a & b & H1 & H2 & H3). inversion H1; subst. eauto. Qed.

Section App.
  Context {C : Type}.
  Lemma discovered_app : forall t1 t2 : list (DfsEvent C),
    discovered (t1 ++ t2) = discovered t1 ++ discovered t2.
  Proof. induction t1 as [|[] t1 IH]; intros t2; cbn [app discovered]; auto. rewrite IH. auto. Qed.
  Lemma finished_app : forall t1 t2 : list (DfsEvent C),
    finished (t1 ++ t2) = finished t1 ++ finished t2.
  Proof. induction t1 as [|[] t1 IH]; intros t2; cbn [app finished]; auto. rewrite IH. auto. Qed.
  Lemma times_app : forall t1 t2 : list (DfsEvent C), times (t1 ++ t2) = times t1 ++ times t2.
  Proof.
    induction t1 as [|[] t1 IH]; intros t2; cbn [app times]; auto; rewrite IH; auto.
  Qed.
  Lemma edges_seen_app : forall t1 t2 : list (DfsEvent C),
    edges_seen (t1 ++ t2) = edges_seen t1 ++ edges_seen t2.
  Proof.
    induction t1 as [|[] t1 IH]; intros t2; cbn [app edges_seen]; auto; rewrite IH; auto.
  Qed.
  Lemma open_app : forall (t1 t2 : list (DfsEvent C)) st,
    open_after st (t1 ++ t2) = open_after (open_after st t1) t2.
  Proof. induction t1 as [|[] t1 IH]; intros t2 st; cbn [app open_after]; auto. Qed.
  Lemma told_app : forall V B (f : V -> DfsEvent C -> V + B) t1 t2 w,
    told f w (t1 ++ t2) = match told f w t1 with inl w => told f w t2 | inr b => inr b end.
  Proof.
    induction t1 as [|e t1 IH]; intros t2 w; cbn [app told]; auto. destruct (f w e); auto.
  Qed.

  Lemma from_none : forall (a : C) es, (forall b, ~ In (a, b) es) -> From a es [].
  Proof.
    intros a. induction es as [|[x b] es IH]; intros H; constructor.
    - intros ->. apply (H b). left. auto.
    - apply IH. intros y Hy. apply (H y). right. auto.
  Qed.
  Lemma from_snoc : forall (a : C) es l b, From a es l -> From a (es ++ [(a, b)]) (l ++ [b]).
  Proof. induction 1; cbn [app]; repeat constructor; auto. Qed.
  Lemma from_snoc_other : forall (a : C) es l x b, x <> a -> From a es l -> From a (es ++ [(x, b)]) l.
  Proof. induction 2; cbn [app]; repeat constructor; auto. Qed.

  Lemma split_snoc : forall (X : Type) (l p q : list X) e x, l ++ [x] = p ++ e :: q ->
    (q = [] /\ l = p /\ x = e) \/ exists q', q = q' ++ [x] /\ l = p ++ e :: q'.
  Proof.
    intros X l p q e x H. destruct q as [|y q] using rev_ind.
    - apply app_inj_tail in H as [-> ->]. auto.
    - clear IHq. change (e :: q ++ [y]) with ((e :: q) ++ [y]) in H. rewrite app_assoc in H.
      apply app_inj_tail in H as [-> ->]. right. exists q. auto.
  Qed.
End App.
Arguments split_snoc {X}.

Section Any.
  Context {C It Ids VM : Type} (m : mode) (nb : C -> It)
    (nb_next : C -> It -> outcome (option C * It))
    (visit : VM -> C -> outcome (bool * VM)) (visited : VM -> C -> outcome bool)
    (dec : forall a b : C, {a = b} + {a <> b})
    (board : list C) (raw : C -> list C) (VR : VM -> list C -> Prop)
    (Hnb : forall c, In c board -> Drains (nb_next c) (nb c) (raw c))
    (Hfew : forall c, In c board -> (length (raw c) <= 8)%nat)
    (Hoff : forall c x, In c board -> In x (raw c) -> ~ In x board -> forall vm,
       visit vm x = Ok (false, vm) /\ visited vm x = Ok false)
    (Hvisit : forall vm M c, VR vm M -> In c board ->
       exists b vm', visit vm c = Ok (b, vm') /\ (b = true <-> ~ In c M) /\ VR vm' (c :: M))
    (Hvisited : forall vm M c, VR vm M -> In c board ->
       exists b, visited vm c = Ok b /\ (b = true <-> In c M))
    (VRext : forall vm M M', VR vm M -> (forall c, In c M <-> In c M') -> VR vm M')
    (Hlen : Z.of_nat (length board) <= 2 ^ 63) (starts : list C).

  Notation ev := (DfsEvent C).
  Notation clock pre := (Z.of_nat (length (times pre))).

  (** The run after the events [pre] with the open nodes [stack], each with the neighbours
      still to be looked at: the events to come, and how many rounds they take. *)
  Inductive run : nat -> list ev -> list (C * list C) -> list ev -> Prop :=
  | run_end pre : run 0 pre [] []
  | run_off n pre u v rest st0 tr :
      ~ In v board ->
      run n (pre ++ [TreeEdge u v]) ((u, rest) :: st0) tr ->
      run (S n) pre ((u, v :: rest) :: st0) (TreeEdge u v :: tr)
  | run_tree n pre u v rest st0 tr :
      In v board -> ~ In v (discovered pre) ->
      run n (pre ++ [TreeEdge u v; Discover v (clock pre)]) ((v, raw v) :: (u, rest) :: st0) tr ->
      run (S n) pre ((u, v :: rest) :: st0) (TreeEdge u v :: Discover v (clock pre) :: tr)
  | run_back n pre u v rest st0 tr :
      In v board -> In v (discovered pre) -> ~ In v (finished pre) ->
      run n (pre ++ [BackEdge u v]) ((u, rest) :: st0) tr ->
      run (S n) pre ((u, v :: rest) :: st0) (BackEdge u v :: tr)
  | run_cross n pre u v rest st0 tr :
      In v board -> In v (discovered pre) -> In v (finished pre) ->
      run n (pre ++ [CrossForwardEdge u v]) ((u, rest) :: st0) tr ->
      run (S n) pre ((u, v :: rest) :: st0) (CrossForwardEdge u v :: tr)
  | run_finish n pre u st0 tr :
      ~ In u (finished pre) ->
      run n (pre ++ [Finish u (clock pre)]) st0 tr ->
      run (S n) pre ((u, []) :: st0) (Finish u (clock pre) :: tr).

  (** ** What holds in between *)

  Definition adj (c : C) : list (C * C) := map (pair c) (raw c).
  Definition todo (stack : list (C * list C)) : list (C * C) :=
    flat_map (fun x => map (pair (fst x)) (snd x)) stack.

  Context (P : C -> Prop) (HP : forall c x, In c board -> P c -> In x (raw c) -> In x board -> P x).

  Record AI (pre : list ev) (stack : list (C * list C)) : Prop := {
    ai_open : map fst stack = open_after [] pre;
    ai_nodup : NoDup (discovered pre);
    ai_fin : NoDup (finished pre);
    ai_board : incl (discovered pre) board;
    ai_parts : forall c, In c (discovered pre) <-> In c (open_after [] pre) \/ In c (finished pre);
    ai_apart : forall c, In c (open_after [] pre) -> ~ In c (finished pre);
    ai_once : NoDup (open_after [] pre);
    ai_rest : forall u rest, In (u, rest) stack ->
      exists l, raw u = l ++ rest /\ From u (edges_seen pre) l;
    ai_src : forall a b, In (a, b) (edges_seen pre) -> In a (discovered pre);
    ai_edges : Permutation (edges_seen pre ++ todo stack) (flat_map adj (discovered pre));
    ai_times : times pre = zrange (clock pre);
    ai_proper : forall p e q, pre = p ++ e :: q -> Proper raw starts p e;
    ai_reach : forall c, In c (discovered pre) -> P c
  }.

  Lemma proper_snoc : forall pre e,
    (forall p e q, pre = p ++ e :: q -> Proper raw starts p e) -> Proper raw starts pre e ->
    forall p e' q, pre ++ [e] = p ++ e' :: q -> Proper raw starts p e'.
  Proof.
    intros pre e H1 H2 p e' q H. apply split_snoc in H as [(-> & -> & ->)|(q' & _ & ->)]; auto.
    eapply H1. reflexivity.
  Qed.

  Lemma next_app : forall pre tr : list ev,
    (forall p a b q, pre = p ++ TreeEdge a b :: q -> In b board -> exists t q', q = Discover b t :: q') ->
    (forall p a b q, tr = p ++ TreeEdge a b :: q -> In b board -> exists t q', q = Discover b t :: q') ->
    forall p a b q, pre ++ tr = p ++ TreeEdge a b :: q -> In b board -> exists t q', q = Discover b t :: q'.
  Proof.
    intros pre tr H1 H2 p. revert pre H1. induction p as [|x p IH]; intros pre H1 a b q H Hbb.
    - destruct pre as [|y pre]; cbn [app] in H; [apply (H2 [] a b q H Hbb)|].
      injection H as -> <-. destruct (H1 [] a b pre eq_refl Hbb) as (t & q' & ->).
      exists t, (q' ++ tr). reflexivity.
    - destruct pre as [|y pre]; cbn [app] in H; [apply (H2 (x :: p) a b q H Hbb)|].
      injection H as -> H. apply (IH pre) with (a := a); auto.
      intros p' a' b' q' ->. apply (H1 (x :: p') a' b' q'). reflexivity.
  Qed.

  Lemma times_clock : forall (pre : list ev) t, times pre = zrange (clock pre) ->
    t = clock pre -> times pre ++ [t] = zrange (Z.of_nat (length (times pre ++ [t]))).
  Proof.
    intros pre t H ->. rewrite app_length. cbn [length].
    replace (Z.of_nat (length (times pre) + 1)) with (clock pre + 1) by lia.
    rewrite zrange_succ by lia. rewrite <- H. reflexivity.
  Qed.

  Lemma todo_cons : forall u rest st, todo ((u, rest) :: st) = map (pair u) rest ++ todo st.
  Proof. reflexivity. Qed.

  (** A node is discovered. *)
  Lemma ai_enter : forall pre st v, AI pre st -> In v board -> P v -> ~ In v (discovered pre) ->
    ((st = [] /\ exists before after, starts = before ++ v :: after /\ incl before (discovered pre)) \/
     exists pre' p, pre = pre' ++ [TreeEdge p v]) ->
    AI (pre ++ [Discover v (clock pre)]) ((v, raw v) :: st).
  Proof.
    intros pre st v I Hv Pv Hnew Htop. destruct I.
    constructor; rewrite ?discovered_app, ?finished_app, ?times_app, ?edges_seen_app, ?open_app;
      cbn [discovered finished times edges_seen open_after app map fst]; rewrite ?app_nil_r; auto.
    - rewrite ai_open0. reflexivity.
    - apply snoc_nodup; auto.
    - intros c Hc. apply in_app_or in Hc as [Hc|[<-|[]]]; auto.
    - intros c. rewrite in_app_iff, ai_parts0. cbn [In]. tauto.
    - intros c [<-|Hc]; auto. intros Hf. apply Hnew. apply ai_parts0. auto.
    - constructor; auto. intros Ho. apply Hnew. apply ai_parts0. auto.
    - intros u rest [[= <- <-]|H]; [|eapply ai_rest0; eauto]. exists []. split; [reflexivity|].
      apply from_none. intros b Hb. eauto.
    - intros a b Hb. apply in_or_app. left. eauto.
    - rewrite todo_cons, flat_map_app. cbn [flat_map]. rewrite app_nil_r. fold (adj v).
      rewrite <- ai_edges0. rewrite <- !app_assoc. apply Permutation_app_head.
      apply Permutation_app_comm.
    - apply times_clock; auto.
    - apply proper_snoc; auto. split; auto. destruct Htop as [[-> Htop]|Htop]; auto.
    - intros c Hc. apply in_app_or in Hc as [Hc|[<-|[]]]; auto.
  Qed.

  (** An edge is looked at. *)
  Lemma ai_look : forall pre u v rest st e, AI pre ((u, v :: rest) :: st) ->
    e = TreeEdge u v \/ e = BackEdge u v \/ e = CrossForwardEdge u v ->
    Proper raw starts pre e -> AI (pre ++ [e]) ((u, rest) :: st).
  Proof.
    intros pre u v rest st e I He Hp. destruct I.
    assert (E1 : discovered [e] = []) by (destruct He as [->|[->| ->]]; reflexivity).
    assert (E2 : finished [e] = []) by (destruct He as [->|[->| ->]]; reflexivity).
    assert (E3 : times [e] = []) by (destruct He as [->|[->| ->]]; reflexivity).
    assert (E4 : edges_seen [e] = [(u, v)]) by (destruct He as [->|[->| ->]]; reflexivity).
    assert (E5 : forall s, open_after s [e] = s) by (intros s; destruct He as [->|[->| ->]]; reflexivity).
    constructor; rewrite ?discovered_app, ?finished_app, ?times_app, ?edges_seen_app, ?open_app,
      ?E1, ?E2, ?E3, ?E4, ?E5, ?app_nil_r; auto.
    - intros u' rest' [[= <- <-]|H].
      + destruct (ai_rest0 u (v :: rest)) as (l & El & Fl); [left; auto|].
        exists (l ++ [v]). rewrite <- app_assoc. split; auto. apply from_snoc. auto.
      + destruct (ai_rest0 u' rest') as (l & El & Fl); [right; auto|].
        exists l. split; auto. apply from_snoc_other; auto. intros <-.
        rewrite <- ai_open0 in ai_once0. cbn [map fst] in ai_once0. inversion ai_once0; subst.
        apply H2. apply in_map_iff. exists (u, rest'). auto.
    - intros a b Hb. apply in_app_or in Hb as [Hb|[[= <- <-]|[]]]; [eauto|].
      apply ai_parts0. left. rewrite <- ai_open0. left. reflexivity.
    - rewrite <- ai_edges0. rewrite !todo_cons, <- !app_assoc. reflexivity.
    - apply proper_snoc; auto.
  Qed.

  (** A node is finished. *)
  Lemma ai_finish : forall pre u st, AI pre ((u, []) :: st) ->
    ~ In u (finished pre) /\ AI (pre ++ [Finish u (clock pre)]) st.
  Proof.
    intros pre u st I. destruct I.
    cbn [map fst] in ai_open0.
    assert (Hu : ~ In u (finished pre)).
    { apply ai_apart0. rewrite <- ai_open0. left. auto. }
    assert (Hst : ~ In u (map fst st) /\ NoDup (map fst st)).
    { rewrite <- ai_open0 in ai_once0. inversion ai_once0; auto. }
    split; auto.
    constructor; rewrite ?discovered_app, ?finished_app, ?times_app, ?edges_seen_app, ?open_app;
      cbn [discovered finished times edges_seen open_after app map fst]; rewrite ?app_nil_r; auto;
      rewrite <- ?ai_open0; cbn [tl]; auto; try tauto.
    - apply snoc_nodup; auto.
    - intros c. rewrite ai_parts0, in_app_iff, <- ai_open0. cbn [In]. tauto.
    - intros c Hc Hf. apply in_app_or in Hf as [Hf|[<-|[]]]; [|tauto].
      revert Hf. apply ai_apart0. rewrite <- ai_open0. right. auto.
    - intros u' rest H. eapply ai_rest0. right. eauto.
    - apply times_clock; auto.
    - apply proper_snoc; auto. repeat split; auto.
      + rewrite <- ai_open0. reflexivity.
      + destruct (ai_rest0 u []) as (l & El & Fl); [left; auto|]. rewrite app_nil_r in El.
        rewrite El. exact Fl.
  Qed.

  (** ** Every run ends *)

  Definition weight (pre : list ev) (stack : list (C * list C)) : nat :=
    (9 * (length board - length (discovered pre)) +
     list_sum (map (fun x => S (length (snd x))) stack))%nat.

  Lemma weight_cons : forall pre u r st, weight pre ((u, r) :: st) = (S (length r) + weight pre st)%nat.
  Proof. intros. unfold weight, list_sum. cbn [map fold_right snd]. lia. Qed.

  Lemma weight_same : forall pre e st, discovered [e] = [] -> weight (pre ++ [e]) st = weight pre st.
  Proof. intros pre e st H. unfold weight. rewrite discovered_app, H, app_nil_r. reflexivity. Qed.

  Definition AJ (pre : list ev) (stack : list (C * list C)) : Prop :=
    AI pre stack /\
    (forall p a b q, pre = p ++ TreeEdge a b :: q -> In b board -> exists t q', q = Discover b t :: q') /\
    (forall a b, In (a, b) (edges_seen pre) -> In b board -> In b (discovered pre)).

  Lemma in_dec_c : forall x (l : list C), In x l \/ ~ In x l.
  Proof. intros x l. destruct (in_dec dec x l); auto. Qed.

  Lemma no_tree : forall e : ev, (forall a b, e <> TreeEdge a b) ->
    forall p a b q, [e] = p ++ TreeEdge a b :: q -> In b board -> exists t q', q = Discover b t :: q'.
  Proof.
    intros e H p a b q E _. destruct p as [|x p]; [injection E as -> _; edestruct H; eauto|].
    injection E as _ E. destruct p; discriminate.
  Qed.

  Lemma run_exists : forall k pre stack, (weight pre stack <= k)%nat -> AJ pre stack ->
    exists n tr, (n <= weight pre stack)%nat /\ run n pre stack tr /\ AJ (pre ++ tr) [].
  Proof.
    induction k as [|k IH]; intros pre stack Hk (I & Hnx & Hs).
    { destruct stack as [|[u rest] st].
      - exists 0%nat, []. rewrite app_nil_r. split; [lia|]. split; [constructor|]. split; auto.
      - rewrite weight_cons in Hk. lia. }
    destruct stack as [|[u [|v rest]] st].
    { exists 0%nat, []. rewrite app_nil_r. split; [lia|]. split; [constructor|]. split; auto. }
    - destruct (ai_finish _ _ _ I) as [Hu I'].
      assert (W : weight pre ((u, []) :: st) = S (weight (pre ++ [Finish u (clock pre)]) st)).
      { rewrite weight_same by reflexivity. apply weight_cons. }
      edestruct (IH (pre ++ [Finish u (clock pre)]) st) as (n & tr & Hn & R & A).
      + lia.
      + split; [exact I'|]. split.
        * apply next_app; auto. apply no_tree. discriminate.
        * intros a b. rewrite edges_seen_app, discovered_app. cbn [edges_seen discovered].
          rewrite !app_nil_r. apply Hs.
      + exists (S n), (Finish u (clock pre) :: tr). split; [lia|]. split; [constructor; auto|].
        rewrite <- app_assoc in A. exact A.
    - assert (Hu : In u (discovered pre)).
      { apply (ai_parts _ _ I). left. rewrite <- (ai_open _ _ I). left. auto. }
      assert (Hh : hd_error (open_after [] pre) = Some u).
      { rewrite <- (ai_open _ _ I). reflexivity. }
      assert (Hv : In v (raw u)).
      { destruct (ai_rest _ _ I u (v :: rest)) as (l & El & _); [left; auto|].
        rewrite El. apply in_or_app. right. left. auto. }
      assert (Hub : In u board) by (apply (ai_board _ _ I); auto).
      destruct (in_dec_c v board) as [Hvb|Hvb].
      2:{ edestruct (IH (pre ++ [TreeEdge u v]) ((u, rest) :: st)) as (n & tr & Hn & R & A).
          - rewrite weight_same, weight_cons by reflexivity. rewrite weight_cons in Hk. cbn [length] in Hk. lia.
          - split.
            + eapply ai_look; eauto. repeat split; auto. intros Hd. apply Hvb. apply (ai_board _ _ I). auto.
            + split.
              * apply next_app; auto. intros [|x p] a b q Eq; [injection Eq as <- <- <-; tauto|].
                injection Eq as _ Eq. destruct p; discriminate.
              * intros a b. rewrite edges_seen_app, discovered_app. cbn [edges_seen discovered].
                rewrite !app_nil_r. intros H Hb. apply in_app_or in H as [H|[[= <- <-]|[]]]; [eauto|tauto].
          - exists (S n), (TreeEdge u v :: tr). split.
            { rewrite weight_same, weight_cons in Hn by reflexivity. rewrite weight_cons. cbn [length]. lia. }
            split; [constructor; auto|]. rewrite <- app_assoc in A. exact A. }
      destruct (in_dec_c v (discovered pre)) as [Hd|Hd].
      + destruct (in_dec_c v (finished pre)) as [Hf|Hf].
        * edestruct (IH (pre ++ [CrossForwardEdge u v]) ((u, rest) :: st)) as (n & tr & Hn & R & A).
          -- rewrite weight_same, weight_cons by reflexivity. rewrite weight_cons in Hk. cbn [length] in Hk. lia.
          -- split; [eapply ai_look; eauto; repeat split; auto|]. split.
             ++ apply next_app; auto. apply no_tree. discriminate.
             ++ intros a b. rewrite edges_seen_app, discovered_app. cbn [edges_seen discovered]. rewrite !app_nil_r.
                intros H Hb. apply in_app_or in H as [H|[[= <- <-]|[]]]; eauto.
          -- exists (S n), (CrossForwardEdge u v :: tr). split.
             { rewrite weight_same, weight_cons in Hn by reflexivity. rewrite weight_cons. cbn [length]. lia. }
             split; [constructor; auto|]. rewrite <- app_assoc in A. exact A.
        * edestruct (IH (pre ++ [BackEdge u v]) ((u, rest) :: st)) as (n & tr & Hn & R & A).
          -- rewrite weight_same, weight_cons by reflexivity. rewrite weight_cons in Hk. cbn [length] in Hk. lia.
          -- split; [eapply ai_look; eauto; repeat split; auto|].
             { apply (ai_parts _ _ I) in Hd as [Hd|Hd]; tauto. }
             split.
             ++ apply next_app; auto. apply no_tree. discriminate.
             ++ intros a b. rewrite edges_seen_app, discovered_app. cbn [edges_seen discovered]. rewrite !app_nil_r.
                intros H Hb. apply in_app_or in H as [H|[[= <- <-]|[]]]; eauto.
          -- exists (S n), (BackEdge u v :: tr). split.
             { rewrite weight_same, weight_cons in Hn by reflexivity. rewrite weight_cons. cbn [length]. lia. }
             split; [constructor; auto|]. rewrite <- app_assoc in A. exact A.
      + assert (Hpv : P v) by (apply (HP u v); auto; apply (ai_reach _ _ I); auto).
        assert (I1 : AI (pre ++ [TreeEdge u v]) ((u, rest) :: st))
          by (eapply ai_look; eauto; repeat split; auto).
        assert (E : discovered (pre ++ [TreeEdge u v]) = discovered pre)
          by (rewrite discovered_app; apply app_nil_r).
        assert (Et : times (pre ++ [TreeEdge u v]) = times pre)
          by (rewrite times_app; apply app_nil_r).
        assert (I2 : AI (pre ++ [TreeEdge u v; Discover v (clock pre)]) ((v, raw v) :: (u, rest) :: st)).
        { pose proof (ai_enter _ _ v I1 Hvb Hpv) as H. rewrite E, Et, <- app_assoc in H. apply H; auto.
          right. exists pre, u. reflexivity. }
        assert (Hl : (length (discovered pre) < length board)%nat).
        { apply (NoDup_incl_length (l := v :: discovered pre)).
          - constructor; auto. apply (ai_nodup _ _ I).
          - intros x [<-|Hx]; auto. apply (ai_board _ _ I); auto. }
        assert (W : (S (weight (pre ++ [TreeEdge u v; Discover v (clock pre)]) ((v, raw v) :: (u, rest) :: st))
                     <= weight pre ((u, v :: rest) :: st))%nat).
        { rewrite !weight_cons. unfold weight. rewrite discovered_app, app_length.
          cbn [discovered length]. pose proof (Hfew v Hvb). lia. }
        edestruct (IH (pre ++ [TreeEdge u v; Discover v (clock pre)]) ((v, raw v) :: (u, rest) :: st))
          as (n & tr & Hn & R & A).
        * lia.
        * split; [exact I2|]. split.
          -- apply next_app; auto. intros p a b q Eq _. destruct p as [|x p].
             { injection Eq as <- <- <-. eauto. }
             injection Eq as _ Eq. destruct p as [|y p]; [discriminate|].
             injection Eq as _ Eq. destruct p; discriminate.
          -- intros a b. rewrite edges_seen_app, discovered_app. cbn [edges_seen discovered].
             rewrite !in_app_iff. intros [H|[[= <- <-]|[]]] Hb; [left; eauto|right; left; auto].
        * exists (S n), (TreeEdge u v :: Discover v (clock pre) :: tr). split; [lia|].
          split; [apply run_tree; auto|]. rewrite <- app_assoc in A. exact A.
  Qed.

  (** The run over all the starting nodes. *)
  Inductive runs : list ev -> list C -> list ev -> Prop :=
  | runs_nil pre : runs pre [] []
  | runs_old pre c cs tr : In c (discovered pre) -> runs pre cs tr -> runs pre (c :: cs) tr
  | runs_new pre c cs n t1 t2 : ~ In c (discovered pre) ->
      Z.of_nat n < 2 ^ 72 ->
      run n (pre ++ [Discover c (clock pre)]) [(c, raw c)] t1 ->
      runs (pre ++ Discover c (clock pre) :: t1) cs t2 ->
      runs pre (c :: cs) (Discover c (clock pre) :: t1 ++ t2).

  Lemma weight_small : forall pre v, In v board -> Z.of_nat (weight pre [(v, raw v)]) < 2 ^ 72.
  Proof.
    intros pre v Hv. rewrite weight_cons. unfold weight, list_sum. cbn [map fold_right].
    pose proof (Hfew v Hv). change (2 ^ 72) with (512 * 2 ^ 63).
    assert (1 <= 2 ^ 63) by (vm_compute; discriminate). revert Hlen H0. generalize (2 ^ 63). intros y Hy.
    lia.
  Qed.

  Lemma runs_exists : forall cs pre before, incl cs board -> (forall c, In c cs -> P c) ->
    starts = before ++ cs -> incl before (discovered pre) -> AJ pre [] ->
    exists tr, runs pre cs tr /\ AJ (pre ++ tr) [] /\ forall c, In c cs -> In c (discovered (pre ++ tr)).
  Proof.
    induction cs as [|c cs IH]; intros pre before Hcs HPc Est Hbf (I & Hnx & Hs).
    { exists []. rewrite app_nil_r. split; [constructor|]. split; [split; auto|]. intros c []. }
    assert (Hcs' : incl cs board) by (intros y Hy; apply Hcs; right; auto).
    assert (HPc' : forall y, In y cs -> P y) by (intros y Hy; apply HPc; right; auto).
    assert (Hc : In c board) by (apply Hcs; left; auto).
    destruct (in_dec_c c (discovered pre)) as [Hd|Hd].
    - destruct (IH pre (before ++ [c]) Hcs' HPc') as (tr & R & A & F); [| |split; auto|].
      { rewrite <- app_assoc. auto. }
      { intros y Hy. apply in_app_or in Hy as [Hy|[<-|[]]]; auto. }
      exists tr. split; [constructor; auto|]. split; auto. intros y [<-|Hy]; auto.
      rewrite discovered_app. apply in_or_app. auto.
    - assert (I1 : AJ (pre ++ [Discover c (clock pre)]) [(c, raw c)]).
      { split; [apply ai_enter; auto; [apply HPc; left; auto|left; split; eauto]|]. split.
        - apply next_app; auto. apply no_tree. discriminate.
        - intros a b. rewrite edges_seen_app, discovered_app. cbn [edges_seen discovered].
          rewrite app_nil_r, in_app_iff. intros H Hb. left. eauto. }
      destruct (run_exists _ _ _ (le_n _) I1) as (n & t1 & Hn & R & A).
      rewrite <- app_assoc in A. cbn [app] in A.
      edestruct (fun H1 H2 => IH _ (before ++ [c]) Hcs' HPc' H1 H2 A) as (t2 & R2 & A2 & F).
      { rewrite <- app_assoc. auto. }
      { rewrite discovered_app. intros y Hy. apply in_or_app.
        apply in_app_or in Hy as [Hy|[<-|[]]]; [left; auto|right; left; auto]. }
      rewrite <- app_assoc in A2, F. cbn [app] in A2, F.
      exists (Discover c (clock pre) :: t1 ++ t2). split.
      + apply runs_new with (n := n); auto.
        pose proof (weight_small (pre ++ [Discover c (clock pre)]) c Hc).
        apply Z.le_lt_trans with (2 := H). apply inj_le. exact Hn.
      + split; auto. intros y [<-|Hy]; auto. rewrite discovered_app. apply in_or_app.
        right. left. auto.
  Qed.

  Lemma aj_start : AJ [] [].
  Proof.
    split.
    - constructor; cbn; auto; try (constructor); try tauto; try (intros ? []; fail); try (intros ? ? []; fail).
      + intros p e q H. destruct p; discriminate.
    - split; [|intros a b []]. intros p a b q H. destruct p; discriminate.
  Qed.

  (** ** The search follows the run *)

  Context {V B : Type} (visitor : V -> ev -> V + B).

  Notation state := (@DfsState C It VM V).
  Notation round := (dfs_round m nb nb_next visit visited visitor).

  Record Rep (st : state) (pre : list ev) (stack : list (C * list C)) : Prop := {
    rp_open : Forall2 (fun x y => fst x = fst y /\ Drains (nb_next (fst x)) (snd x) (snd y))
                (ds_open st) stack;
    rp_disc : VR (ds_disc st) (discovered pre);
    rp_fin : VR (ds_fin st) (finished pre);
    rp_time : ds_time st = clock pre
  }.

  Lemma ext_snoc : forall vm l c, VR vm (c :: l) -> VR vm (l ++ [c]).
  Proof. intros vm l c H. eapply VRext; [exact H|]. intros x. rewrite in_app_iff. cbn [In]. tauto. Qed.

  (** Entering a new node. *)
  Lemma rep_enter : forall st pre stack v, Rep st pre stack -> In v board -> ~ In v (discovered pre) ->
    match visitor (ds_val st) (Discover v (clock pre)) with
    | inr b => dfs_enter nb visit visitor st v = Ok (inr b)
    | inl w => exists st', dfs_enter nb visit visitor st v = Ok (inl st') /\ ds_val st' = w /\
        Rep st' (pre ++ [Discover v (clock pre)]) ((v, raw v) :: stack)
    end.
  Proof.
    intros st pre stack v R Hv Hd. destruct R.
    destruct (Hvisit _ _ _ rp_disc0 Hv) as (b & vm & E & Hb & HV).
    assert (b = true) as -> by (apply Hb; auto).
    unfold dfs_enter. rewrite E. cbn [bind]. rewrite rp_time0.
    destruct (visitor (ds_val st) (Discover v (clock pre))) as [w|x]; [|reflexivity].
    eexists. split; [reflexivity|]. split; [reflexivity|].
    constructor; cbn [ds_open ds_disc ds_fin ds_time]; rewrite ?discovered_app, ?finished_app, ?times_app;
      cbn [discovered finished times]; rewrite ?app_nil_r; auto.
    - constructor; [split; [reflexivity|apply Hnb; auto]|auto].
    - apply ext_snoc; auto.
    - rewrite app_length. cbn [length]. lia.
  Qed.

  Lemma run_follows : forall n pre stack tr, run n pre stack tr ->
    Forall (fun x => In (fst x) board /\ incl (snd x) (raw (fst x))) stack ->
    forall st, Rep st pre stack -> exists k, (k <= n)%nat /\
      match told visitor (ds_val st) tr with
      | inl w => exists st', Rounds round k st (Ok (inl st')) /\ Rep st' (pre ++ tr) [] /\ ds_val st' = w
      | inr b => Rounds round k st (Ok (inr b))
      end.
  Proof.
    induction 1; intros HF st R.
    - exists 0%nat. split; [lia|]. cbn [told]. exists st. rewrite app_nil_r. split; [|auto].
      apply R_done. destruct R. inversion rp_open0 as [Ho|]. unfold dfs_round. rewrite <- Ho. reflexivity.
    - (* off the board *)
      apply Forall_cons_iff in HF as [[Hu Hr] HF]. cbn [fst snd] in Hu, Hr.
      destruct R as [Ro Rd Rf Rt]. inversion Ro as [|[u' it] y lo ls [Hfst Hdr] Ho Eo Ey]; subst.
      cbn [fst snd] in Hfst, Hdr. subst u'.
      apply drains_some in Hdr as (it' & En & Hdr).
      destruct (Hoff u v Hu ltac:(apply Hr; left; auto) H (ds_disc st)) as [Ef Ed].
      cbn [told].
      destruct (visitor (ds_val st) (TreeEdge u v)) as [w|b] eqn:Ev1.
      2:{ exists 0%nat. split; [lia|]. apply R_done. unfold dfs_round. rewrite <- Eo, En. cbn [bind].
          rewrite Ed. cbn [bind]. rewrite Ev1. reflexivity. }
      set (st1 := mkDfs ((u, it') :: lo) (ds_disc st) (ds_fin st) (ds_time st) w : state).
      assert (R1 : Rep st1 (pre ++ [TreeEdge u v]) ((u, rest) :: st0)).
      { constructor; rewrite ?discovered_app, ?finished_app, ?times_app;
          cbn [ds_open ds_disc ds_fin ds_time st1 discovered finished times]; rewrite ?app_nil_r; auto. }
      destruct (IHrun) with (st := st1) as (k & Hk & HR); auto.
      { constructor; auto; split; auto; intros y Hy; apply Hr; right; auto. }
      change (ds_val st1) with w in HR. exists (S k). split; [lia|].
      assert (Es : round st = Ok (inl st1)).
      { unfold dfs_round. rewrite <- Eo, En. cbn [bind]. rewrite Ed. cbn [bind]. rewrite Ev1.
        unfold dfs_enter. cbn [ds_disc]. rewrite Ef. cbn [bind]. reflexivity. }
      destruct (told visitor w tr) as [w3|b].
      + destruct HR as (st' & HR & RR & Hw). exists st'. split; [eapply R_more; eauto|].
        split; auto. rewrite <- app_assoc in RR. exact RR.
      + eapply R_more; eauto.
    - (* tree *)
      apply Forall_cons_iff in HF as [[Hu Hr] HF]. cbn [fst snd] in Hu, Hr.
      assert (Hv : In v board) by auto.
      destruct R as [Ro Rd Rf Rt]. inversion Ro as [|[u' it] y lo ls [Hfst Hdr] Ho Eo Ey]; subst.
      cbn [fst snd] in Hfst, Hdr. subst u'.
      apply drains_some in Hdr as (it' & En & Hdr).
      destruct (Hvisited _ _ _ Rd Hv) as (d & Ed & Hd).
      assert (d = false) as -> by (destruct d; auto; exfalso; apply H0; apply Hd; auto).
      cbn [told].
      destruct (visitor (ds_val st) (TreeEdge u v)) as [w|b] eqn:Ev1.
      2:{ exists 0%nat. split; [lia|]. apply R_done. unfold dfs_round. rewrite <- Eo, En. cbn [bind].
          rewrite Ed. cbn [bind]. rewrite Ev1. reflexivity. }
      set (st1 := mkDfs ((u, it') :: lo) (ds_disc st) (ds_fin st) (ds_time st) w : state).
      assert (R1 : Rep st1 (pre ++ [TreeEdge u v]) ((u, rest) :: st0)).
      { constructor; rewrite ?discovered_app, ?finished_app, ?times_app;
          cbn [ds_open ds_disc ds_fin ds_time st1 discovered finished times]; rewrite ?app_nil_r; auto. }
      pose proof (rep_enter st1 _ _ v R1 Hv) as HE.
      rewrite discovered_app, times_app in HE. cbn [discovered times] in HE. rewrite !app_nil_r in HE.
      specialize (HE H0). change (ds_val st1) with w in HE.
      destruct (visitor w (Discover v (clock pre))) as [w2|b] eqn:Ev2.
      2:{ exists 0%nat. split; [lia|]. apply R_done. unfold dfs_round. rewrite <- Eo, En. cbn [bind].
          rewrite Ed. cbn [bind]. rewrite Ev1. fold st1. rewrite HE. reflexivity. }
      destruct HE as (st2 & E2 & Hw2 & R2). rewrite <- app_assoc in R2. cbn [app] in R2.
      destruct (IHrun) with (st := st2) as (k & Hk & HR); auto.
      { constructor; [|constructor; auto; split; auto; intros y Hy; apply Hr; right; auto].
        cbn [fst snd]. split; auto. apply incl_refl. }
      rewrite Hw2 in HR. exists (S k). split; [lia|].
      assert (Es : round st = Ok (inl st2)).
      { unfold dfs_round. rewrite <- Eo, En. cbn [bind]. rewrite Ed. cbn [bind]. rewrite Ev1.
        fold st1. rewrite E2. reflexivity. }
      destruct (told visitor w2 tr) as [w3|b].
      + destruct HR as (st' & HR & RR & Hw). exists st'. split; [eapply R_more; eauto|].
        split; auto. rewrite <- app_assoc in RR. exact RR.
      + eapply R_more; eauto.
    - (* back *)
      apply Forall_cons_iff in HF as [[Hu Hr] HF]. cbn [fst snd] in Hu, Hr.
      assert (Hv : In v board) by auto.
      destruct R as [Ro Rd Rf Rt]. inversion Ro as [|[u' it] y lo ls [Hfst Hdr] Ho Eo Ey]; subst.
      cbn [fst snd] in Hfst, Hdr. subst u'.
      apply drains_some in Hdr as (it' & En & Hdr).
      destruct (Hvisited _ _ _ Rd Hv) as (d & Ed & Hd).
      assert (d = true) as -> by (apply Hd; auto).
      destruct (Hvisited _ _ _ Rf Hv) as (f & Ef & Hf).
      assert (f = false) as -> by (destruct f; auto; exfalso; apply H1; apply Hf; auto).
      cbn [told].
      destruct (visitor (ds_val st) (BackEdge u v)) as [w|b] eqn:Ev1.
      2:{ exists 0%nat. split; [lia|]. apply R_done. unfold dfs_round. rewrite <- Eo, En. cbn [bind].
          rewrite Ed. cbn [bind]. rewrite Ef. cbn [bind]. rewrite Ev1. reflexivity. }
      set (st1 := mkDfs ((u, it') :: lo) (ds_disc st) (ds_fin st) (ds_time st) w : state).
      assert (R1 : Rep st1 (pre ++ [BackEdge u v]) ((u, rest) :: st0)).
      { constructor; rewrite ?discovered_app, ?finished_app, ?times_app;
          cbn [ds_open ds_disc ds_fin ds_time st1 discovered finished times]; rewrite ?app_nil_r; auto. }
      destruct (IHrun) with (st := st1) as (k & Hk & HR); auto.
      { constructor; auto; split; auto; intros y Hy; apply Hr; right; auto. }
      change (ds_val st1) with w in HR. exists (S k). split; [lia|].
      assert (Es : round st = Ok (inl st1)).
      { unfold dfs_round. rewrite <- Eo, En. cbn [bind]. rewrite Ed. cbn [bind]. rewrite Ef. cbn [bind].
        rewrite Ev1. reflexivity. }
      destruct (told visitor w tr) as [w3|b].
      + destruct HR as (st' & HR & RR & Hw). exists st'. split; [eapply R_more; eauto|].
        split; auto. rewrite <- app_assoc in RR. exact RR.
      + eapply R_more; eauto.
    - (* cross *)
      apply Forall_cons_iff in HF as [[Hu Hr] HF]. cbn [fst snd] in Hu, Hr.
      assert (Hv : In v board) by auto.
      destruct R as [Ro Rd Rf Rt]. inversion Ro as [|[u' it] y lo ls [Hfst Hdr] Ho Eo Ey]; subst.
      cbn [fst snd] in Hfst, Hdr. subst u'.
      apply drains_some in Hdr as (it' & En & Hdr).
      destruct (Hvisited _ _ _ Rd Hv) as (d & Ed & Hd).
      assert (d = true) as -> by (apply Hd; auto).
      destruct (Hvisited _ _ _ Rf Hv) as (f & Ef & Hf).
      assert (f = true) as -> by (apply Hf; auto).
      cbn [told].
      destruct (visitor (ds_val st) (CrossForwardEdge u v)) as [w|b] eqn:Ev1.
      2:{ exists 0%nat. split; [lia|]. apply R_done. unfold dfs_round. rewrite <- Eo, En. cbn [bind].
          rewrite Ed. cbn [bind]. rewrite Ef. cbn [bind]. rewrite Ev1. reflexivity. }
      set (st1 := mkDfs ((u, it') :: lo) (ds_disc st) (ds_fin st) (ds_time st) w : state).
      assert (R1 : Rep st1 (pre ++ [CrossForwardEdge u v]) ((u, rest) :: st0)).
      { constructor; rewrite ?discovered_app, ?finished_app, ?times_app;
          cbn [ds_open ds_disc ds_fin ds_time st1 discovered finished times]; rewrite ?app_nil_r; auto. }
      destruct (IHrun) with (st := st1) as (k & Hk & HR); auto.
      { constructor; auto; split; auto; intros y Hy; apply Hr; right; auto. }
      change (ds_val st1) with w in HR. exists (S k). split; [lia|].
      assert (Es : round st = Ok (inl st1)).
      { unfold dfs_round. rewrite <- Eo, En. cbn [bind]. rewrite Ed. cbn [bind]. rewrite Ef. cbn [bind].
        rewrite Ev1. reflexivity. }
      destruct (told visitor w tr) as [w3|b].
      + destruct HR as (st' & HR & RR & Hw). exists st'. split; [eapply R_more; eauto|].
        split; auto. rewrite <- app_assoc in RR. exact RR.
      + eapply R_more; eauto.
    - (* finish *)
      apply Forall_cons_iff in HF as [[Hu Hr] HF]. cbn [fst snd] in Hu, Hr.
      destruct R as [Ro Rd Rf Rt]. inversion Ro as [|[u' it] y lo ls [Hfst Hdr] Ho Eo Ey]; subst.
      cbn [fst snd] in Hfst, Hdr. subst u'.
      apply drains_none in Hdr as (it' & En).
      destruct (Hvisit _ _ _ Rf Hu) as (f & vm & Ef & Hf & HV).
      assert (f = true) as -> by (apply Hf; auto).
      cbn [told].
      destruct (visitor (ds_val st) (Finish u (clock pre))) as [w|b] eqn:Ev1.
      2:{ exists 0%nat. split; [lia|]. apply R_done. unfold dfs_round. rewrite <- Eo, En. cbn [bind].
          rewrite Ef. cbn [bind]. rewrite Rt, Ev1. reflexivity. }
      set (st1 := mkDfs lo (ds_disc st) vm (ds_time st + 1) w : state).
      assert (R1 : Rep st1 (pre ++ [Finish u (clock pre)]) st0).
      { constructor; rewrite ?discovered_app, ?finished_app, ?times_app;
          cbn [ds_open ds_disc ds_fin ds_time st1 discovered finished times]; rewrite ?app_nil_r; auto.
        - apply ext_snoc; auto.
        - rewrite app_length. cbn [length]. lia. }
      destruct (IHrun) with (st := st1) as (k & Hk & HR); auto.
      change (ds_val st1) with w in HR. exists (S k). split; [lia|].
      assert (Es : round st = Ok (inl st1)).
      { unfold dfs_round. rewrite <- Eo, En. cbn [bind]. rewrite Ef. cbn [bind].
        rewrite Rt, Ev1. rewrite <- Rt. reflexivity. }
      destruct (told visitor w tr) as [w3|b].
      + destruct HR as (st' & HR & RR & Hw). exists st'. split; [eapply R_more; eauto|].
        split; auto. rewrite <- app_assoc in RR. exact RR.
      + eapply R_more; eauto.
  Qed.

  Lemma runs_follow : forall pre cs tr, runs pre cs tr -> incl cs board ->
    forall st, Rep st pre [] ->
    match told visitor (ds_val st) tr with
    | inl w => exists st', fold_return (dfs_visitor m nb nb_next visit visited visitor) cs st = Ok (inl st') /\
        ds_val st' = w
    | inr b => fold_return (dfs_visitor m nb nb_next visit visited visitor) cs st = Ok (inr b)
    end.
  Proof.
    induction 1; intros Hcs st R.
    - cbn [told fold_return]. eauto.
    - assert (Hc : In c board) by (apply Hcs; left; auto).
      assert (Hcs' : incl cs board) by (intros y Hy; apply Hcs; right; auto).
      destruct (Hvisit _ _ _ (rp_disc _ _ _ R) Hc) as (b & vm & E & Hb & HV).
      assert (b = false) as -> by (destruct b; auto; exfalso; apply Hb; auto).
      set (st1 := mkDfs (ds_open st) vm (ds_fin st) (ds_time st) (ds_val st) : state).
      assert (R1 : Rep st1 pre []).
      { destruct R. constructor; cbn [ds_open ds_disc ds_fin ds_time st1]; auto.
        eapply VRext; [exact HV|]. intros x. cbn [In]. split; [intros [<-|Hx]; auto|auto]. }
      assert (Es : dfs_visitor m nb nb_next visit visited visitor st c = Ok (inl st1)).
      { unfold dfs_visitor, dfs_enter. rewrite E. cbn [bind]. fold st1.
        apply (loop_rounds _ 0%nat); [|reflexivity]. apply R_done.
        destruct R1. inversion rp_open0 as [Ho|]. unfold dfs_round.
        change (ds_open st1) with (ds_open st). rewrite <- Ho. reflexivity. }
      cbn [fold_return]. rewrite Es. cbn [bind].
      change (ds_val st) with (ds_val st1). apply IHruns; auto.
    - assert (Hc : In c board) by (apply Hcs; left; auto).
      assert (Hcs' : incl cs board) by (intros y Hy; apply Hcs; right; auto).
      pose proof (rep_enter st pre [] c R Hc H) as HE. cbn [told fold_return].
      unfold dfs_visitor at 1 3.
      destruct (visitor (ds_val st) (Discover c (clock pre))) as [w|b].
      2:{ rewrite HE. reflexivity. }
      destruct HE as (st1 & E1 & Hw1 & R1). rewrite E1. cbn [bind].
      edestruct (run_follows _ _ _ _ H1) with (st := st1) as (k & Hk & HR); auto.
      { constructor; [|constructor]. cbn [fst snd]. split; auto. apply incl_refl. }
      rewrite Hw1 in HR. rewrite told_app.
      destruct (told visitor w t1) as [w3|b].
      + destruct HR as (st' & HR & RR & Hw). rewrite (loop_rounds _ _ _ _ HR) by lia. cbn [bind].
        rewrite <- app_assoc in RR. cbn [app] in RR. rewrite <- Hw. apply IHruns; auto.
      + rewrite (loop_rounds _ _ _ _ HR) by lia. reflexivity.
  Qed.
End Any.

Section Search.
  Context {C It Ids VM : Type} (m : mode) (nb : C -> It)
    (nb_next : C -> It -> outcome (option C * It))
    (visit : VM -> C -> outcome (bool * VM)) (visited : VM -> C -> outcome bool)
    (dec : forall a b : C, {a = b} + {a <> b})
    (board : list C) (raw : C -> list C) (VR : VM -> list C -> Prop)
    (Hnb : forall c, In c board -> Drains (nb_next c) (nb c) (raw c))
    (Hfew : forall c, In c board -> (length (raw c) <= 8)%nat)
    (Hoff : forall c x, In c board -> In x (raw c) -> ~ In x board -> forall vm,
       visit vm x = Ok (false, vm) /\ visited vm x = Ok false)
    (Hvisit : forall vm M c, VR vm M -> In c board ->
       exists b vm', visit vm c = Ok (b, vm') /\ (b = true <-> ~ In c M) /\ VR vm' (c :: M))
    (Hvisited : forall vm M c, VR vm M -> In c board ->
       exists b, visited vm c = Ok b /\ (b = true <-> In c M))
    (VRext : forall vm M M', VR vm M -> (forall c, In c M <-> In c M') -> VR vm M')
    (Hlen : Z.of_nat (length board) <= 2 ^ 63)
    (fresh : VM) (Hfresh : VR fresh [])
    (it : Ids) (next : Ids -> outcome (option C * Ids)) (starts : list C)
    (Hstarts : Drains next it starts) (Hshort : Z.of_nat (length starts) + 1 < 2 ^ 72)
    (Hon : incl starts board).

  Lemma times_both : forall tr : list (DfsEvent C),
    length (times tr) = (length (discovered tr) + length (finished tr))%nat.
  Proof. induction tr as [|[] tr IH]; cbn [times discovered finished length]; lia. Qed.

  Theorem any_dfs : exists tr, DepthFirst raw board starts tr /\
    forall V B (visitor : V -> DfsEvent C -> V + B) w,
      depth_first_search m nb nb_next visit visited visitor fresh it next w = Ok (told visitor w tr).
  Proof.
    assert (HP : forall c x, In c board -> Leads raw board starts c -> In x (raw c) -> In x board -> Leads raw board starts x).
    { intros c x _ H1 H2 H3. eapply leads_step; eauto. }
    destruct (runs_exists nb nb_next visit visited dec board raw VR Hnb Hfew Hoff Hvisit Hvisited VRext
      Hlen starts (Leads raw board starts) HP) with
      (cs := starts) (pre := @nil (DfsEvent C)) (before := @nil C) as (tr & R & (A & Hnx & Hseen) & F); auto.
    - intros c Hc. apply leads_start; auto.
    - intros c [].
    - apply aj_start.
    - cbn [app] in *. exists tr. split.
      + destruct A. cbn [map] in ai_open0. rewrite <- ai_open0 in *.
        assert (Pm : Permutation (finished tr) (discovered tr)).
        { apply NoDup_Permutation; auto. intros c. rewrite ai_parts0. cbn [In]. tauto. }
        cbn [todo flat_map] in ai_edges0. rewrite app_nil_r in ai_edges0.
        constructor; auto.
        * split; auto. intros c. split; auto. induction 1 as [c Hc|c x Hc IHc Hx Hxb]; auto.
          apply (Hseen c x); auto. rewrite ai_edges0. apply in_flat_map. exists c. split; auto.
          apply in_map. auto.
        * rewrite ai_times0 at 1. f_equal. rewrite times_both.
          rewrite (Permutation_length Pm). lia.
      + intros V B visitor w. unfold depth_first_search.
        pose proof (runs_follow m nb nb_next visit visited dec board raw VR Hnb Hfew Hoff Hvisit
          Hvisited VRext starts (Leads raw board starts) HP visitor _ _ _ R Hon (mkDfs [] fresh fresh 0 w)) as HF.
        cbn [ds_val] in HF. specialize (HF ltac:(constructor; cbn; auto)).
        destruct (told visitor w tr) as [w'|b].
        * destruct HF as (st' & E & Hw). rewrite (for_return_fold _ _ _ _ _ _ _ _ _ _ Hstarts Hshort E).
          cbn [bind]. rewrite Hw. reflexivity.
        * rewrite (for_return_fold _ _ _ _ _ _ _ _ _ _ Hstarts Hshort HF). reflexivity.
  Qed.
End Search.
