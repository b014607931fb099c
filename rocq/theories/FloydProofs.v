(** * FloydProofs: the table that [floyd_warshall] fills holds the least price of every pair. *)

From Verif Require Import Machine Store Traverse Astar Basics StoreProofs TraverseProofs Floyd Spec14.
From Coq Require Import ZifyBool ZifyNat.

(** ** Tables *)

Definition Sq (n : nat) (d : Table) : Prop := length d = n /\ forall row, In row d -> length row = n.
Definition at_ (d : Table) (i j : nat) : Z := nth j (nth i d []) 0.

Lemma nth_list_set : forall X (l : list X) i x k y, (i < length l)%nat ->
  nth k (list_set l i x) y = if (k =? i)%nat then x else nth k l y.
Proof.
  induction l as [|a l IH]; intros i x k y Hi; [simpl in Hi; lia|].
  destruct i, k; simpl; auto. rewrite IH by (simpl in Hi; lia). reflexivity.
Qed.

Lemma len_list_set : forall X (l : list X) i x, length (list_set l i x) = length l.
Proof. induction l as [|a l IH]; intros [|i] x; simpl; auto. Qed.

Lemma in_list_set : forall X (l : list X) i x y, In y (list_set l i x) -> y = x \/ In y l.
Proof.
  induction l as [|a l IH]; intros [|i] x y H; simpl in *; auto.
  - destruct H; auto.
  - destruct H as [H|H]; auto. destruct (IH _ _ _ H); auto.
Qed.

Lemma sq_row : forall n d i, Sq n d -> (i < n)%nat ->
  nth_error d i = Some (nth i d []) /\ length (nth i d []) = n.
Proof.
  intros n d i [H1 H2] Hi. split; [apply nth_error_nth'; lia|]. apply H2. apply nth_In. lia.
Qed.

Lemma get_ok : forall n d i j, Sq n d -> (i < n)%nat -> (j < n)%nat ->
  tab_get d (Z.of_nat i) (Z.of_nat j) = Ok (at_ d i j).
Proof.
  intros n d i j HS Hi Hj. destruct (sq_row n d i HS Hi) as [R1 R2]. unfold tab_get.
  replace ((Z.of_nat i <? 0) || (Z.of_nat j <? 0)) with false by lia.
  rewrite !Nat2Z.id, R1. rewrite (nth_error_nth' _ 0) by lia. reflexivity.
Qed.

Lemma set_ok : forall n d i j x, Sq n d -> (i < n)%nat -> (j < n)%nat ->
  exists d', tab_set d (Z.of_nat i) (Z.of_nat j) x = Ok d' /\ Sq n d' /\
    forall i' j', at_ d' i' j' = if ((i' =? i) && (j' =? j))%nat then x else at_ d i' j'.
Proof.
  intros n d i j x HS Hi Hj. destruct (sq_row n d i HS Hi) as [R1 R2]. unfold tab_set.
  rewrite (get_ok n) by auto. cbn [bind]. rewrite !Nat2Z.id, R1. eexists. split; [reflexivity|].
  destruct HS as [S1 S2]. split; [split|].
  - rewrite len_list_set. auto.
  - intros row Hr. apply in_list_set in Hr. destruct Hr as [->|Hr]; auto. rewrite len_list_set. auto.
  - intros i' j'. unfold at_. rewrite nth_list_set by lia. destruct (Nat.eqb_spec i' i) as [->|]; auto.
    cbn [andb]. rewrite nth_list_set by lia. reflexivity.
Qed.

Lemma at_repeat : forall n x i j, (i < n)%nat -> (j < n)%nat ->
  at_ (repeat (repeat x n) n) i j = x.
Proof.
  intros n x i j Hi Hj. unfold at_.
  rewrite (nth_indep _ _ (repeat x n)) by (rewrite repeat_length; lia). rewrite nth_repeat.
  rewrite (nth_indep _ _ x) by (rewrite repeat_length; lia). apply nth_repeat.
Qed.

Lemma sq_repeat : forall n x, Sq n (repeat (repeat x n) n).
Proof.
  intros n x. split; [apply repeat_length|]. intros row Hr. apply repeat_spec in Hr.
  subst. apply repeat_length.
Qed.

(** ** Running through a list *)

Lemma fold_hit : forall S X (f : S -> X -> outcome S) (P : S -> Prop) (Q : X -> S -> Prop)
  (R : S -> S -> Prop), (forall s, R s s) -> (forall a b c, R a b -> R b c -> R a c) ->
  (forall x s s', Q x s -> R s s' -> Q x s') ->
  forall l, (forall s x, In x l -> P s -> exists s', f s x = Ok s' /\ P s' /\ Q x s' /\ R s s') ->
  forall s, P s -> exists s', fold_outcome f l s = Ok s' /\ P s' /\ R s s' /\ forall x, In x l -> Q x s'.
Proof.
  intros S X f P Q R R1 R2 RQ. induction l as [|a l IH]; intros Hf s Hs.
  - exists s. cbn [fold_outcome]. repeat split; auto. intros x [].
  - destruct (Hf s a (or_introl eq_refl) Hs) as (s1 & E1 & P1 & Q1 & T1).
    destruct (IH (fun s x Hx => Hf s x (or_intror Hx)) s1 P1) as (s2 & E2 & P2 & T2 & A2).
    exists s2. cbn [fold_outcome]. rewrite E1. cbn [bind]. split; auto. split; auto. split; [eauto|].
    intros x [<-|Hx]; eauto.
Qed.

Lemma in_zrange : forall n k, In k (zrange (Z.of_nat n)) <-> exists i, k = Z.of_nat i /\ (i < n)%nat.
Proof.
  intros n k. unfold zrange. rewrite Nat2Z.id, in_map_iff. split.
  - intros (i & <- & Hi). apply in_seq in Hi. exists i. split; auto. lia.
  - intros (i & -> & Hi). exists i. split; auto. apply in_seq. lia.
Qed.

(** ** Ways through some of the nodes *)

Section Via.
  Context {C : Type} (es : list (C * C * Z)) (POS : forall a b w, In (a, b, w) es -> 0 <= w).

  Inductive Via (P : C -> Prop) : C -> Z -> C -> Prop :=
  | via_here c : Via P c 0 c
  | via_edge a b w : In (a, b, w) es -> Via P a w b
  | via_step a b w k c : In (a, b, w) es -> P b -> Via P b k c -> Via P a (w + k) c.

  Lemma via_pos : forall P a k b, Via P a k b -> 0 <= k.
  Proof. induction 1; try apply POS in H; lia. Qed.

  Lemma way_via : forall (P : C -> Prop), (forall a b w, In (a, b, w) es -> P b) ->
    forall a k b, Way es a k b -> Via P a k b.
  Proof. intros P HP. induction 1; [apply via_here|]. eapply via_step; eauto. Qed.

  Lemma way_app : forall a k b k' c, Way es a k b -> Way es b k' c -> Way es a (k + k') c.
  Proof.
    induction 1; intros H1; auto. rewrite <- Z.add_assoc. eapply way_step; eauto.
  Qed.

  Lemma via_split : forall (P P' : C -> Prop) x, (forall c, P' c -> P c \/ c = x) ->
    forall a k b, Via P' a k b ->
    Via P a k b \/ exists k1 k2, Via P a k1 x /\ Via P x k2 b /\ k1 + k2 <= k.
  Proof.
    intros P P' x HP. induction 1 as [c|a b w H|a b w k c H Hb HV IH].
    - left. apply via_here.
    - left. apply via_edge. auto.
    - destruct (HP b Hb) as [Hp| ->].
      + destruct IH as [IH|(k1 & k2 & I1 & I2 & I3)].
        * left. eapply via_step; eauto.
        * right. exists (w + k1), k2. split; [eapply via_step; eauto|]. split; auto. lia.
      + right. destruct IH as [IH|(k1 & k2 & I1 & I2 & I3)].
        * exists w, k. split; [apply via_edge; auto|]. split; auto. lia.
        * exists w, k2. split; [apply via_edge; auto|]. split; auto.
          pose proof (via_pos _ _ _ _ I1). lia.
  Qed.
End Via.

(** ** The algorithm *)

Section Client.
  Context {C Ed RIt NIt : Type} (eqb : C * C -> C * C -> bool) (lo hi : Z) (over directed : bool)
    (count : outcome Z) (to_index : C -> outcome Z) (from_index : Z -> outcome C)
    (refs : RIt) (refs_next : RIt -> outcome (option Ed * RIt))
    (source target : Ed -> outcome C) (cost : Ed -> Z)
    (ids : NIt) (ids_next : NIt -> outcome (option C * NIt)).
  Context (nodes : list C) (l : list Ed) (src tgt : Ed -> C).
  Hypothesis EQB : forall x y, eqb x y = true <-> x = y.
  Hypothesis LO : lo <= 0.
  Hypothesis HI : 0 <= hi.
  Hypothesis COUNT : count = Ok (Z.of_nat (length nodes)).
  Hypothesis IDX : forall i c, nth_error nodes i = Some c -> to_index c = Ok (Z.of_nat i).
  Hypothesis FROM : forall i c, nth_error nodes i = Some c -> from_index (Z.of_nat i) = Ok c.
  Hypothesis REFS : Drains refs_next refs l.
  Hypothesis LEN : Z.of_nat (length l) + 1 < 2 ^ 72.
  Hypothesis IDS : Drains ids_next ids nodes.
  Hypothesis NLEN : Z.of_nat (length nodes) + 1 < 2 ^ 72.
  Hypothesis SRC : forall e, In e l -> source e = Ok (src e).
  Hypothesis TGT : forall e, In e l -> target e = Ok (tgt e).
  Hypothesis ENDS : forall e, In e l -> In (src e) nodes /\ In (tgt e) nodes.
  Hypothesis COST : forall e, In e l -> 0 <= cost e <= hi.

  Notation priced := (map (fun e => (src e, tgt e, cost e)) l).
  Definition taken : list (C * C * Z) := ways_of directed priced.
  Hypothesis SAME : over = true -> forall a b w w',
    In (a, b, w) taken -> In (a, b, w') taken -> w = w'.

  Notation n := (length nodes).
  Notation es := taken.

  Lemma in_priced : forall a b w, In (a, b, w) priced ->
    In a nodes /\ In b nodes /\ 0 <= w <= hi.
  Proof.
    intros a b w H. apply in_map_iff in H. destruct H as (e & [= <- <- <-] & He).
    destruct (ENDS e He). split; auto.
  Qed.

  Lemma in_taken : forall a b w, In (a, b, w) es -> In a nodes /\ In b nodes /\ 0 <= w <= hi.
  Proof.
    intros a b w H. unfold taken, ways_of in H. destruct directed; [apply in_priced; auto|].
    apply in_app_or in H. destruct H as [H|H]; [apply in_priced; auto|].
    apply in_map_iff in H. destruct H as ([[x y] z] & [= <- <- <-] & He).
    apply in_priced in He. tauto.
  Qed.

  Lemma taken_edge : forall e, In e l -> In (src e, tgt e, cost e) es /\
    (directed = false -> In (tgt e, src e, cost e) es).
  Proof.
    intros e He.
    assert (H : In (src e, tgt e, cost e) priced) by (apply in_map_iff; eauto).
    unfold taken, ways_of. destruct directed; split; auto; [congruence| |intros _]; unfold both_ways; apply in_or_app; auto.
    right. apply in_map_iff. exists (src e, tgt e, cost e). auto.
  Qed.

  Lemma pos : forall a b w, In (a, b, w) es -> 0 <= w.
  Proof. intros a b w H. apply in_taken in H. lia. Qed.

  Lemma idx_in : forall c, In c nodes -> exists i, nth_error nodes i = Some c /\ (i < n)%nat /\
    to_index c = Ok (Z.of_nat i).
  Proof.
    intros c Hc. apply In_nth_error in Hc. destruct Hc as (i & Hi). exists i. split; auto.
    split; auto. apply nth_error_Some. congruence.
  Qed.

  Lemma idx_lt : forall i c, nth_error nodes i = Some c -> (i < n)%nat.
  Proof. intros i c H. apply nth_error_Some. congruence. Qed.

  Lemma idx_node : forall i, (i < n)%nat -> exists c, nth_error nodes i = Some c.
  Proof.
    intros i Hi. destruct (nth_error nodes i) eqn:E; eauto. apply nth_error_None in E. lia.
  Qed.

  Lemma idx_inj : forall i j c, nth_error nodes i = Some c -> nth_error nodes j = Some c -> i = j.
  Proof. intros i j c Hi Hj. apply IDX in Hi. apply IDX in Hj. rewrite Hi in Hj. injection Hj. lia. Qed.

  (** No entry has grown. *)
  Definition Below (d d' : Table) : Prop := forall i j, (i < n)%nat -> (j < n)%nat -> at_ d' i j <= at_ d i j.

  Lemma below_refl : forall d, Below d d.
  Proof. intros d i j _ _. lia. Qed.
  Lemma below_trans : forall a b c, Below a b -> Below b c -> Below a c.
  Proof. intros a b c H1 H2 i j Hi Hj. specialize (H1 i j Hi Hj). specialize (H2 i j Hi Hj). lia. Qed.

  (** Entries below [hi] are prices of ways. *)
  Definition Sound (d : Table) : Prop := Sq n d /\ forall i j a b,
    nth_error nodes i = Some a -> nth_error nodes j = Some b ->
    0 <= at_ d i j <= hi /\ (at_ d i j < hi -> Way es a (at_ d i j) b).

  Definition Complete (k : nat) (d : Table) : Prop := forall i j a b c,
    nth_error nodes i = Some a -> nth_error nodes j = Some b ->
    Via es (fun x => exists p, (p < k)%nat /\ nth_error nodes p = Some x) a c b -> at_ d i j <= c.

  (** *** The edges *)

  Definition Direct (d : Table) : Prop := Sq n d /\
    (forall i j a b, nth_error nodes i = Some a -> nth_error nodes j = Some b ->
       at_ d i j = hi \/ In (a, b, at_ d i j) es) /\
    (directed = false -> forall i j, (i < n)%nat -> (j < n)%nat -> at_ d i j = at_ d j i).

  Definition Entered (e : Ed) (d : Table) : Prop := forall i j,
    nth_error nodes i = Some (src e) -> nth_error nodes j = Some (tgt e) ->
    at_ d i j <= cost e /\ (directed = false -> at_ d j i <= cost e).

  Lemma edge_step : forall d e, In e l -> Direct d ->
    exists d', fw_edge over directed to_index source target cost d e = Ok d' /\ Direct d' /\
      Entered e d' /\ Below d d'.
  Proof.
    intros d e He (D1 & D2 & D3). destruct (ENDS e He) as [Hs Ht].
    destruct (idx_in _ Hs) as (i & I1 & I2 & I3). destruct (idx_in _ Ht) as (j & J1 & J2 & J3).
    destruct (taken_edge e He) as [T1 T2]. pose proof (COST e He) as HC.
    unfold fw_edge. rewrite (SRC e He), (TGT e He). cbn [bind]. rewrite I3, J3. cbn [bind].
    rewrite (get_ok n) by auto. cbn [bind].
    assert (OLD : over = true \/ cost e < at_ d i j -> cost e <= at_ d i j).
    { intros [Ho|]; [|lia]. destruct (D2 i j _ _ I1 J1) as [E|E]; [lia|].
      rewrite (SAME Ho _ _ _ _ T1 E). lia. }
    destruct (over || (cost e <? at_ d i j)) eqn:Eb.
    - assert (Hle : cost e <= at_ d i j) by (apply OLD; destruct over; simpl in Eb; [auto|right; lia]).
      destruct (set_ok n d i j (cost e) D1 I2 J2) as (d1 & E1 & Q1 & A1). rewrite E1. cbn [bind].
      destruct directed eqn:Edir.
      + exists d1. split; auto. split; [|split].
        * split; auto. split; [|congruence]. intros i' j' a b Ha Hb. rewrite A1.
          destruct ((i' =? i) && (j' =? j))%nat eqn:Eq; auto.
          assert (i' = i) by lia. assert (j' = j) by lia. subst.
          right. rewrite I1 in Ha. rewrite J1 in Hb. injection Ha as <-. injection Hb as <-. auto.
        * intros i' j' Hi' Hj'. rewrite (idx_inj _ _ _ Hi' I1), (idx_inj _ _ _ Hj' J1), A1.
          rewrite !Nat.eqb_refl. cbn [andb]. split; [lia|congruence].
        * intros i' j' _ _. rewrite A1. destruct ((i' =? i) && (j' =? j))%nat eqn:Eq; [|lia].
          assert (i' = i) by lia. assert (j' = j) by lia. subst. auto.
      + destruct (set_ok n d1 j i (cost e) Q1 J2 I2) as (d2 & E2 & Q2 & A2). exists d2. split; auto.
        specialize (T2 eq_refl). specialize (D3 eq_refl).
        assert (A : forall i' j', at_ d2 i' j' =
          if ((i' =? i) && (j' =? j) || (i' =? j) && (j' =? i))%nat then cost e else at_ d i' j').
        { intros i' j'. rewrite A2, A1.
          destruct ((i' =? j) && (j' =? i))%nat eqn:X1, ((i' =? i) && (j' =? j))%nat eqn:X2; auto. }
        split; [|split].
        * split; auto. split.
          -- intros i' j' a b Ha Hb. rewrite A.
             destruct ((i' =? i) && (j' =? j))%nat eqn:Eq; cbn [orb].
             { assert (i' = i) by lia. assert (j' = j) by lia. subst.
               right. rewrite I1 in Ha. rewrite J1 in Hb. injection Ha as <-. injection Hb as <-. auto. }
             destruct ((i' =? j) && (j' =? i))%nat eqn:Eq2; auto.
             assert (i' = j) by lia. assert (j' = i) by lia. subst.
             right. rewrite I1 in Hb. rewrite J1 in Ha. injection Ha as <-. injection Hb as <-. auto.
          -- intros _ i' j' Hi' Hj'. rewrite !A. rewrite (D3 i' j') by auto.
             replace ((j' =? i) && (i' =? j) || (j' =? j) && (i' =? i))%nat
               with ((i' =? i) && (j' =? j) || (i' =? j) && (j' =? i))%nat; auto.
             destruct (i' =? i)%nat, (j' =? j)%nat, (i' =? j)%nat, (j' =? i)%nat; auto.
        * intros i' j' Hi' Hj'. rewrite (idx_inj _ _ _ Hi' I1), (idx_inj _ _ _ Hj' J1), !A.
          rewrite !Nat.eqb_refl. cbn [andb orb]. rewrite orb_true_r. split; intros; lia.
        * intros i' j' _ _. rewrite A. destruct ((i' =? i) && (j' =? j))%nat eqn:Eq; cbn [orb].
          { assert (i' = i) by lia. assert (j' = j) by lia. subst. auto. }
          destruct ((i' =? j) && (j' =? i))%nat eqn:Eq2; [|lia].
          assert (i' = j) by lia. assert (j' = i) by lia. subst. rewrite D3 by auto. auto.
    - exists d. split; auto. split; [split; auto|]. split; [|apply below_refl].
      intros i' j' Hi' Hj'. rewrite (idx_inj _ _ _ Hi' I1), (idx_inj _ _ _ Hj' J1).
      assert (at_ d i j <= cost e) by (destruct over; simpl in Eb; [discriminate|lia]).
      split; auto. intros Hd. rewrite (D3 Hd) by auto. auto.
  Qed.

  Lemma entered_below : forall e d d', Entered e d -> Below d d' -> Entered e d'.
  Proof.
    intros e d d' H HB i j Hi Hj. destruct (H i j Hi Hj) as [H1 H2].
    pose proof (HB i j (idx_lt _ _ Hi) (idx_lt _ _ Hj)).
    pose proof (HB j i (idx_lt _ _ Hj) (idx_lt _ _ Hi)).
    split; [lia|]. intros Hd. specialize (H2 Hd). lia.
  Qed.

  Lemma edges_run : exists d,
    for_each refs_next refs (fw_edge over directed to_index source target cost)
      (repeat (repeat hi n) n) = Ok d /\ Direct d /\ forall e, In e l -> Entered e d.
  Proof.
    destruct (fold_hit _ _ (fw_edge over directed to_index source target cost) Direct Entered Below
      below_refl below_trans entered_below l) with (s := repeat (repeat hi n) n)
      as (d & E & D & _ & A).
    - intros s x Hx HD. apply edge_step; auto.
    - split; [apply sq_repeat|]. split.
      + intros i j a b Ha Hb. left. apply at_repeat; eapply idx_lt; eauto.
      + intros _ i j Hi Hj. rewrite !at_repeat by auto. auto.
    - exists d. split; auto. eapply for_each_fold; eauto.
  Qed.

  (** *** The nodes *)

  Lemma direct_sound : forall d, Direct d -> Sound d.
  Proof.
    intros d (D1 & D2 & _). split; auto. intros i j a b Ha Hb.
    destruct (D2 i j a b Ha Hb) as [E|E]; [lia|].
    pose proof (in_taken _ _ _ E) as (_ & _ & Hw). split; [lia|]. intros _.
    rewrite <- (Z.add_0_r (at_ d i j)). eapply way_step; eauto. apply way_here.
  Qed.

  Lemma node_step : forall d c, In c nodes -> Sound d ->
    exists d', fw_node to_index d c = Ok d' /\ Sound d' /\
      (forall i, nth_error nodes i = Some c -> at_ d' i i <= 0) /\ Below d d'.
  Proof.
    intros d c Hc (D1 & D2). destruct (idx_in _ Hc) as (i & I1 & I2 & I3).
    unfold fw_node. rewrite I3. cbn [bind].
    destruct (set_ok n d i i 0 D1 I2 I2) as (d1 & E1 & Q1 & A1). exists d1. split; auto.
    split; [|split].
    - split; auto. intros i' j' a b Ha Hb. rewrite A1.
      destruct ((i' =? i) && (j' =? i))%nat eqn:Eq; auto.
      assert (i' = i) by lia. assert (j' = i) by lia. subst.
      rewrite I1 in Ha, Hb. injection Ha as <-. injection Hb as <-. split; [lia|].
      intros _. apply way_here.
    - intros i' Hi'. rewrite (idx_inj _ _ _ Hi' I1), A1, !Nat.eqb_refl. cbn [andb]. lia.
    - intros i' j' Hi' Hj'. rewrite A1. destruct ((i' =? i) && (j' =? i))%nat; [|lia].
      destruct (idx_node _ Hi') as (a & Ha). destruct (idx_node _ Hj') as (b & Hb).
      specialize (D2 i' j' a b Ha Hb). lia.
  Qed.

  Lemma nodes_run : forall d, Direct d -> (forall e, In e l -> Entered e d) ->
    exists d', for_each ids_next ids (fw_node to_index) d = Ok d' /\ Sound d' /\ Complete 0 d'.
  Proof.
    intros d HD HE.
    destruct (fold_hit _ _ (fw_node to_index) Sound
      (fun c d => forall i, nth_error nodes i = Some c -> at_ d i i <= 0) Below
      below_refl below_trans) with (l := nodes) (s := d) as (d' & E & S' & B' & A').
    - intros c s s' H HB i Hi. specialize (H i Hi).
      pose proof (HB i i (idx_lt _ _ Hi) (idx_lt _ _ Hi)). lia.
    - intros s c Hc Hs. apply node_step; auto.
    - apply direct_sound. auto.
    - exists d'. split; [eapply for_each_fold; eauto|]. split; auto.
      intros i j a b k Ha Hb HV.
      pose proof (via_pos es pos _ _ _ _ HV) as Hk.
      destruct HV as [c|a b w Hin|a b w k c Hin Hp HV].
      + rewrite (idx_inj _ _ _ Ha Hb) in *. apply (A' c); auto. eapply nth_error_In; eauto.
      + pose proof (B' i j (idx_lt _ _ Ha) (idx_lt _ _ Hb)) as HB'.
        enough (at_ d i j <= w) by lia. clear - Hin HE Ha Hb. unfold taken, ways_of in Hin.
        assert (P : forall a b w, In (a, b, w) priced -> exists e,
          In e l /\ src e = a /\ tgt e = b /\ cost e = w).
        { intros x y z H. apply in_map_iff in H. destruct H as (e & [= <- <- <-] & H). eauto. }
        destruct directed eqn:Edir.
        * destruct (P _ _ _ Hin) as (e & He & <- & <- & <-). destruct (HE e He i j) as [H1 _]; auto.
        * apply in_app_or in Hin. destruct Hin as [Hin|Hin].
          -- destruct (P _ _ _ Hin) as (e & He & <- & <- & <-). destruct (HE e He i j) as [H1 _]; auto.
          -- apply in_map_iff in Hin. destruct Hin as ([[x y] z] & [= <- <- <-] & Hin).
             destruct (P _ _ _ Hin) as (e & He & <- & <- & <-). cbn [fst snd] in *.
             destruct (HE e He j i) as [_ H2]; auto.
      + destruct Hp as (p & Hp & _). lia.
  Qed.

  (** *** The three loops *)

  Lemma relax_step : forall k i j d, (k < n)%nat -> (i < n)%nat -> (j < n)%nat -> Sound d ->
    exists d', fw_relax lo hi (Z.of_nat k) (Z.of_nat i) d (Z.of_nat j) = Ok d' /\ Sound d' /\
      Below d d' /\ at_ d' i j <= at_ d i k + at_ d k j.
  Proof.
    intros k i j d Hk Hi Hj [D1 D2]. unfold fw_relax. rewrite !(get_ok n) by auto. cbn [bind].
    destruct (idx_node _ Hi) as (a & Ha). destruct (idx_node _ Hj) as (b & Hb).
    destruct (idx_node _ Hk) as (c & Hc).
    pose proof (D2 _ _ _ _ Ha Hc) as [X1 X2]. pose proof (D2 _ _ _ _ Hc Hb) as [Y1 Y2].
    pose proof (D2 _ _ _ _ Ha Hb) as [Z1 Z2].
    set (x := at_ d i k) in *. set (y := at_ d k j) in *.
    destruct ((lo <=? x + y) && (x + y <=? hi) && (x + y <? at_ d i j)) eqn:Eb.
    - destruct (set_ok n d i j (x + y) D1 Hi Hj) as (d1 & E1 & Q1 & A1). exists d1. split; auto.
      split; [|split].
      + split; auto. intros i' j' a' b' Ha' Hb'. rewrite A1.
        destruct ((i' =? i) && (j' =? j))%nat eqn:Eq; auto.
        assert (i' = i) by lia. assert (j' = j) by lia. subst i' j'.
        rewrite Ha in Ha'. rewrite Hb in Hb'. injection Ha' as <-. injection Hb' as <-.
        split; [lia|]. intros _. eapply way_app; [apply X2|apply Y2]; lia.
      + intros i' j' _ _. rewrite A1. destruct ((i' =? i) && (j' =? j))%nat eqn:Eq; [|lia].
        assert (i' = i) by lia. assert (j' = j) by lia. subst i' j'. lia.
      + rewrite A1, !Nat.eqb_refl. cbn [andb]. lia.
    - exists d. split; auto. split; [split; auto|]. split; [apply below_refl|]. lia.
  Qed.

  Lemma phase : forall k d, (k < n)%nat -> Sound d -> Complete k d ->
    exists d', fold_outcome (fun d i => fold_outcome (fw_relax lo hi (Z.of_nat k) i)
        (zrange (Z.of_nat n)) d) (zrange (Z.of_nat n)) d = Ok d' /\ Sound d' /\ Complete (S k) d'.
  Proof.
    intros k d Hk HS HC.
    pose (P := fun s => Sound s /\ Below d s).
    pose (hit := fun (i j : nat) s => at_ s i j <= at_ d i k + at_ d k j).
    assert (STEP : forall i s, (i < n)%nat -> P s -> exists s',
      fold_outcome (fw_relax lo hi (Z.of_nat k) (Z.of_nat i)) (zrange (Z.of_nat n)) s = Ok s' /\
      P s' /\ Below s s' /\ forall j, (j < n)%nat -> hit i j s').
    { intros i s Hi HP.
      destruct (fold_hit _ _ (fw_relax lo hi (Z.of_nat k) (Z.of_nat i)) P
        (fun jz s => forall j, jz = Z.of_nat j -> (j < n)%nat -> hit i j s) Below
        below_refl below_trans) with (l := zrange (Z.of_nat n)) (s := s)
        as (s' & E & P' & B' & A'); auto.
      - intros jz t t' H HB j -> Hj. specialize (H j eq_refl Hj).
        unfold hit in *. pose proof (HB i j Hi Hj). lia.
      - intros t jz Hjz [T1 T2]. apply in_zrange in Hjz. destruct Hjz as (j & -> & Hj).
        destruct (relax_step k i j t Hk Hi Hj T1) as (t' & E & S' & B' & A').
        exists t'. split; auto. split; [split; auto; eapply below_trans; eauto|]. split; auto.
        intros j' Ej _. assert (j' = j) by lia. subst j'. unfold hit.
        pose proof (T2 i k Hi Hk). pose proof (T2 k j Hk Hj). lia.
      - exists s'. split; auto. split; auto. split; auto. intros j Hj.
        eapply A'; eauto. apply in_zrange. eauto. }
    destruct (fold_hit _ _ (fun d i => fold_outcome (fw_relax lo hi (Z.of_nat k) i)
        (zrange (Z.of_nat n)) d) P
      (fun iz s => forall i j, iz = Z.of_nat i -> (i < n)%nat -> (j < n)%nat -> hit i j s) Below
      below_refl below_trans) with (l := zrange (Z.of_nat n)) (s := d)
      as (d' & E & [S' B'] & _ & A').
    - intros iz t t' H HB i j -> Hi Hj. specialize (H i j eq_refl Hi Hj).
      unfold hit in *. pose proof (HB i j Hi Hj). lia.
    - intros t iz Hiz HP. apply in_zrange in Hiz. destruct Hiz as (i & -> & Hi).
      destruct (STEP i t Hi HP) as (t' & E & P' & B' & A'). exists t'. split; auto. split; auto.
      split; auto. intros i' j Ei _ Hj. assert (i' = i) by lia. subst i'. auto.
    - split; auto. apply below_refl.
    - exists d'. split; auto. split; auto. intros i j a b c Ha Hb HV.
      pose proof (idx_lt _ _ Ha) as Hi. pose proof (idx_lt _ _ Hb) as Hj.
      destruct (idx_node _ Hk) as (x & Hx).
      destruct (via_split es pos (fun y => exists p, (p < k)%nat /\ nth_error nodes p = Some y) (fun y => exists p, (p < S k)%nat /\ nth_error nodes p = Some y) x) with (2 := HV)
        as [HL|(k1 & k2 & V1 & V2 & HK)].
      + intros y (p & Hp & Hy). destruct (Nat.eq_dec p k) as [->|]; [right; congruence|].
        left. exists p. split; auto. lia.
      + pose proof (HC _ _ _ _ _ Ha Hb HL). pose proof (B' i j Hi Hj). lia.
      + pose proof (HC _ _ _ _ _ Ha Hx V1). pose proof (HC _ _ _ _ _ Hx Hb V2).
        assert (HH : hit i j d') by (eapply A'; eauto; apply in_zrange; eauto).
        unfold hit in HH. lia.
  Qed.

  Lemma phases : forall d, Sound d -> Complete 0 d ->
    exists d', fold_outcome (fun d k => fold_outcome (fun d i => fold_outcome (fw_relax lo hi k i)
        (zrange (Z.of_nat n)) d) (zrange (Z.of_nat n)) d) (zrange (Z.of_nat n)) d = Ok d' /\
      Sound d' /\ Complete n d'.
  Proof.
    intros d HS HC.
    enough (GEN : forall q k d, (k + q = n)%nat -> Sound d -> Complete k d ->
      exists d', fold_outcome (fun d k => fold_outcome (fun d i => fold_outcome (fw_relax lo hi k i)
          (zrange (Z.of_nat n)) d) (zrange (Z.of_nat n)) d) (map Z.of_nat (seq k q)) d = Ok d' /\
        Sound d' /\ Complete n d').
    { destruct (GEN n 0%nat d eq_refl HS HC) as (d' & E & R'). exists d'. split; auto.
      rewrite <- E. unfold zrange at 3. rewrite Nat2Z.id. reflexivity. }
    induction q as [|q IH]; intros k t Hk T1 T2.
    - exists t. cbn [seq map fold_outcome]. replace k with n in T2 by lia. auto.
    - destruct (phase k t) as (t1 & E1 & S1 & C1); auto; [lia|].
      destruct (IH (S k) t1) as (t2 & E2 & R2); auto; [lia|].
      exists t2. split; auto. cbn [seq map fold_outcome]. rewrite E1. cbn [bind]. auto.
  Qed.

  (** *** The answer *)

  Theorem floyd_ok : exists r,
    floyd_warshall eqb lo hi over directed count to_index from_index refs refs_next source target
      cost ids ids_next = Ok (Some r) /\ AllPrices hi es nodes r.
  Proof.
    unfold floyd_warshall. rewrite COUNT. cbn [bind]. rewrite !Nat2Z.id.
    destruct edges_run as (d1 & E1 & D1 & A1). rewrite E1. cbn [bind].
    destruct (nodes_run d1 D1 A1) as (d2 & E2 & S2 & C2). rewrite E2. cbn [bind].
    destruct (phases d2 S2 C2) as (d & E3 & [S3 S3'] & C3). rewrite E3. cbn [bind].
    destruct (fold_hit _ _ (fun (b : bool) i => let! x := tab_get d i i in Ok (b || (x <? 0)))
      (fun b => b = false) (fun _ _ => True) (fun _ _ => True)) with (l := zrange (Z.of_nat n)) (s := false)
      as (b & E4 & -> & _); auto.
    { intros b iz Hiz ->. apply in_zrange in Hiz. destruct Hiz as (i & -> & Hi).
      rewrite (get_ok n) by auto. cbn [bind]. exists false.
      destruct (idx_node _ Hi) as (a & Ha). pose proof (S3' _ _ _ _ Ha Ha) as [H _].
      replace (at_ d i i <? 0) with false by lia. auto. }
    rewrite E4. cbn [bind].
    pose (P := fun r : C * C -> option Z => forall a b x, r (a, b) = Some x -> exists i j,
      nth_error nodes i = Some a /\ nth_error nodes j = Some b /\ x = at_ d i j).
    pose (R := fun r r' : C * C -> option Z => forall k, r k <> None -> r' k <> None).
    assert (R1 : forall r, R r r) by (unfold R; auto).
    assert (R2 : forall a b c, R a b -> R b c -> R a c) by (unfold R; auto).
    pose (body := fun (i : Z) (r : C * C -> option Z) (j : Z) =>
        let! a := from_index i in
        let! b := from_index j in
        let! x := tab_get d i j in
        Ok (map_insert eqb r (a, b) x)).
    change (exists r, (let! r := fold_outcome (fun r i => fold_outcome (body i) (zrange (Z.of_nat n)) r)
      (zrange (Z.of_nat n)) (fun _ => None) in Ok (Some r)) = Ok (Some r) /\ AllPrices hi es nodes r).
    assert (STEP : forall r i, (i < n)%nat -> P r -> exists r',
      fold_outcome (body (Z.of_nat i)) (zrange (Z.of_nat n)) r = Ok r' /\ P r' /\
      (forall a b, nth_error nodes i = Some a -> In b nodes -> r' (a, b) <> None) /\ R r r').
    { intros r i Hi HP. destruct (idx_node _ Hi) as (a & Ha).
      destruct (fold_hit _ _ (body (Z.of_nat i)) P
        (fun jz r => forall j b, jz = Z.of_nat j -> nth_error nodes j = Some b -> r (a, b) <> None) R
        R1 R2) with (l := zrange (Z.of_nat n)) (s := r) as (r' & E & P' & R' & A'); auto.
      - intros jz r1 r2 H HR j b Ej Hb. apply HR. eapply H; eauto.
      - intros r1 jz Hjz HP1. apply in_zrange in Hjz. destruct Hjz as (j & -> & Hj).
        destruct (idx_node _ Hj) as (b & Hb). unfold body.
        rewrite (FROM _ _ Ha), (FROM _ _ Hb). cbn [bind]. rewrite (get_ok n) by auto. cbn [bind].
        eexists. split; [reflexivity|]. unfold map_insert. split; [|split].
        + intros a' b' x. destruct (eqb (a', b') (a, b)) eqn:Eq; [|apply HP1].
          apply EQB in Eq. injection Eq as -> ->. intros [= <-]. eauto 6.
        + intros j' b' Ej Hb'. assert (j' = j) by lia. subst j'.
          rewrite Hb in Hb'. injection Hb' as <-.
          replace (eqb (a, b) (a, b)) with true by (symmetry; apply EQB; auto). discriminate.
        + intros k Hk. destruct (eqb k (a, b)); auto. discriminate.
      - exists r'. split; auto. split; auto. split; auto. intros a' b Ha' Hb.
        rewrite Ha in Ha'. injection Ha' as <-. destruct (idx_in _ Hb) as (j & J1 & J2 & _).
        eapply A'; eauto. apply in_zrange. eauto. }
    destruct (fold_hit _ _ (fun r i => fold_outcome (body i) (zrange (Z.of_nat n)) r) P
      (fun iz r => forall i a b, iz = Z.of_nat i -> nth_error nodes i = Some a -> In b nodes ->
        r (a, b) <> None) R R1 R2) with (l := zrange (Z.of_nat n)) (s := fun _ : C * C => @None Z)
      as (r & E & P' & _ & A').
    - intros iz r1 r2 H HR i a b Ei Ha Hb. apply HR. eapply H; eauto.
    - intros r1 iz Hiz HP1. apply in_zrange in Hiz. destruct Hiz as (i & -> & Hi).
      destruct (STEP r1 i Hi HP1) as (r' & E & P' & A' & R'). exists r'. split; auto. split; auto.
      split; auto. intros i' a b Ei Ha Hb. assert (i' = i) by lia. subst i'. auto.
    - intros a b x. discriminate.
    - exists r. rewrite E. cbn [bind]. split; auto. intros a b. destruct (r (a, b)) as [x|] eqn:Er.
      + destruct (P' _ _ _ Er) as (i & j & Ha & Hb & ->).
        split; [eapply nth_error_In; eauto|]. split; [eapply nth_error_In; eauto|].
        destruct (S3' _ _ _ _ Ha Hb) as [X1 X2]. split; [lia|]. split; auto.
        intros k' HW. apply (C3 _ _ _ _ _ Ha Hb).
        eapply way_via; [|exact HW]. intros x y w Hin. apply in_taken in Hin.
        destruct Hin as (_ & Hy & _). destruct (idx_in _ Hy) as (p & P1 & P2 & _). eauto.
      + intros [Ha Hb]. destruct (idx_in _ Ha) as (i & I1 & I2 & _).
        refine (A' (Z.of_nat i) _ i a b eq_refl I1 Hb Er). apply in_zrange. eauto.
  Qed.
End Client.
