(** * KShortestProofs: [k_shortest_path] on any graph given by lists of edges. *)

From Coq Require Import Permutation.
From Verif Require Import Machine Store Traverse Astar Basics TraverseProofs AnySearch AstarProofs
  Bellman BellmanProofs KShortest Spec24.
From Coq Require Import ZifyBool ZifyNat.

Lemma perm_pick : forall A B (f : A -> B) l y q, Permutation (map f l) (y :: q) ->
  exists x l1 l2, l = l1 ++ x :: l2 /\ f x = y /\ Permutation (map f (l1 ++ l2)) q.
Proof.
  intros A B f l y q HP. assert (Hi : In y (map f l)) by (rewrite HP; left; auto).
  apply in_map_iff in Hi. destruct Hi as (x & Hx & Hl). apply in_split in Hl.
  destruct Hl as (l1 & l2 & ->). exists x, l1, l2. split; auto. split; auto.
  rewrite map_app in *. cbn [map] in HP. rewrite Hx in HP.
  apply (Permutation_cons_inv (a := y)). rewrite <- HP. apply Permutation_middle.
Qed.

Lemma nodup_front : forall A (l1 l2 : list A), NoDup (l1 ++ l2) -> NoDup l1.
Proof.
  intros A l1 l2. induction l1 as [|x l1 IH]; intros ND; [constructor|]. inversion_clear ND.
  constructor; auto. intros Hx. apply H. apply in_app_iff. auto.
Qed.

Lemma nodup_join : forall A (l1 l2 : list A), NoDup l1 -> NoDup l2 ->
  (forall x, In x l1 -> In x l2 -> False) -> NoDup (l1 ++ l2).
Proof.
  intros A l1 l2. induction l1 as [|x l1 IH]; intros N1 N2 HD; [auto|]. inversion_clear N1.
  cbn [app]. constructor.
  - rewrite in_app_iff. intros [Hx|Hx]; [auto|]. apply (HD x); auto. left. auto.
  - apply IH; auto. intros y H1 H2. apply (HD y); auto. right. auto.
Qed.

Section Walks.
  Context {C Ed : Type} (tgt : Ed -> C) (cost : Ed -> Z) (out : C -> list Ed).

  Inductive GW : C -> list nat -> Z -> C -> Prop :=
  | gw_none c : GW c [] 0 c
  | gw_next a i e w x b : nth_error (out a) i = Some e -> GW (tgt e) w x b ->
      GW a (i :: w) (cost e + x) b.

  Lemma gw_snoc : forall a w x b, GW a w x b -> forall i e, nth_error (out b) i = Some e ->
    GW a (w ++ [i]) (x + cost e) (tgt e).
  Proof.
    induction 1 as [c|a i e w x b He HW IH]; intros j e' Hj; cbn [app].
    - replace (0 + cost e') with (cost e' + 0) by lia. econstructor; eauto. constructor.
    - rewrite <- Z.add_assoc. econstructor; eauto.
  Qed.

  Lemma gw_det : forall a w x b, GW a w x b -> forall x' b', GW a w x' b' -> x = x' /\ b = b'.
  Proof.
    induction 1 as [c|a i e w x b He HW IH]; intros x' b' H'.
    - inversion H'; auto.
    - remember (i :: w) as w' eqn:EW. destruct H' as [c|a i' e' w' x' b' He' HW']; [discriminate|].
      injection EW as -> ->. rewrite He in He'. injection He' as <-.
      destruct (IH _ _ HW') as [-> ->]. auto.
  Qed.

  Lemma gw_inv : forall a i w y b, GW a (i :: w) y b ->
    exists e x, nth_error (out a) i = Some e /\ GW (tgt e) w x b /\ y = cost e + x.
  Proof. intros a i w y b HW. inversion HW; subst. eauto. Qed.

  Lemma gw_nonneg : forall nodes,
    (forall c e, In c nodes -> In e (out c) -> 0 <= cost e) ->
    (forall c e, In c nodes -> In e (out c) -> In (tgt e) nodes) ->
    forall a w x b, GW a w x b -> In a nodes -> 0 <= x.
  Proof.
    intros nodes NN INN. induction 1 as [|a i e w x b He HW IH]; intros Ha; [lia|].
    apply nth_error_In in He. pose proof (NN a e Ha He). specialize (IH (INN a e Ha He)). lia.
  Qed.

  (** A walk with its cost and where it ends. *)
  Definition W : Type := list nat * Z * C.
  Definition wk (t : W) : list nat := fst (fst t).
  Definition wc (t : W) : Z := snd (fst t).
  Definition we (t : W) : C := snd t.
  Definition pr (t : W) : Z * C := (wc t, we t).

  (** The walks one edge longer. *)
  Fixpoint ext (w : list nat) (x : Z) (j : nat) (l : list Ed) : list W :=
    match l with
    | [] => []
    | e :: l => (w ++ [j], x + cost e, tgt e) :: ext w x (S j) l
    end.

  Lemma in_ext : forall w x l j t, In t (ext w x j l) <->
    exists i e, nth_error l i = Some e /\ t = (w ++ [(j + i)%nat], x + cost e, tgt e).
  Proof.
    intros w x. induction l as [|e l IH]; intros j t; cbn [ext In].
    - split; [intros []|]. intros ([|i] & e & He & _); discriminate.
    - rewrite IH. split.
      + intros [<-|(i & e' & He & ->)].
        * exists 0%nat, e. split; auto. rewrite Nat.add_0_r. auto.
        * exists (S i), e'. split; auto. rewrite Nat.add_succ_r. auto.
      + intros ([|i] & e' & He & ->).
        * injection He as ->. left. rewrite Nat.add_0_r. auto.
        * right. exists i, e'. split; auto. rewrite Nat.add_succ_r. auto.
  Qed.

  Lemma ext_pr : forall w x l j, map pr (ext w x j l) = map (fun e => (x + cost e, tgt e)) l.
  Proof. intros w x. induction l as [|e l IH]; intros j; cbn; [auto|]. f_equal. apply IH. Qed.

  Lemma ext_nodup : forall w x l j, NoDup (map wk (ext w x j l)).
  Proof.
    intros w x. induction l as [|e l IH]; intros j; cbn [ext map]; constructor; auto.
    intros Hi. apply in_map_iff in Hi. destruct Hi as (t & Ht & Hi). apply in_ext in Hi.
    destruct Hi as (i & e' & _ & ->). cbn in Ht. apply app_inv_head in Ht. injection Ht. lia.
  Qed.
End Walks.

(** What is left of the turns of all nodes. *)
Fixpoint left_over (k : Z) (l : list Z) : nat :=
  match l with
  | [] => O
  | v :: l => (Z.to_nat (k - v) + left_over k l)%nat
  end.

Lemma left_over_set : forall k l i v, nth_error l i = Some v -> v < k ->
  (left_over k (list_set l i (v + 1)%Z) < left_over k l)%nat.
Proof.
  intros k l. induction l as [|x l IH]; intros [|i] v Hv Hk; try discriminate; cbn [nth_error list_set left_over] in *.
  - injection Hv as ->. lia.
  - specialize (IH i v Hv Hk). lia.
Qed.

Lemma left_over_past : forall k l i v, nth_error l i = Some v -> k <= v ->
  left_over k (list_set l i (v + 1)) = left_over k l.
Proof.
  intros k l. induction l as [|x l IH]; intros [|i] v Hv Hk; try discriminate; cbn [nth_error list_set left_over] in *.
  - injection Hv as ->. lia.
  - rewrite (IH i v Hv Hk). auto.
Qed.

Section KShortest.
  Context {C Ed It : Type} (eqb : C -> C -> bool) (H : HeapOps C) (count : outcome Z)
    (to_index : C -> outcome Z) (edges : C -> outcome It)
    (edges_next : It -> outcome (option Ed * It)) (target : Ed -> outcome C) (cost : Ed -> Z)
    (goal : option C) (k : Z)
    (nodes : list C) (out : C -> list Ed) (tgt : Ed -> C) (dec : forall a b : C, {a = b} + {a <> b}).
  Notation n := (length nodes).
  Context (EQB : forall a b, eqb a b = true <-> a = b) (HOK : HeapOK H)
    (CNT : count = Ok (Z.of_nat n))
    (IDX : forall i c, nth_error nodes i = Some c -> to_index c = Ok (Z.of_nat i))
    (ED : forall c, In c nodes -> exists it, edges c = Ok it /\ Drains edges_next it (out c))
    (DEG : forall c, In c nodes -> Z.of_nat (length (out c)) + 1 < 2 ^ 72)
    (TGT : forall c e, In c nodes -> In e (out c) -> target e = Ok (tgt e))
    (INN : forall c e, In c nodes -> In e (out c) -> In (tgt e) nodes)
    (NN : forall c e, In c nodes -> In e (out c) -> 0 <= cost e) (K : 1 <= k) (start : C) (ST : In start nodes).
  Notation GW := (GW tgt cost out).
  Notation W := (@W C).
  Notation round := (kshortest_round eqb H to_index edges edges_next target cost goal k).
  Notation idx := (idx to_index).

  Lemma push_all : forall x c l q, In c nodes -> incl l (out c) ->
    exists q', fold_outcome (kshortest_push H target cost x) l q = Ok q' /\
      Permutation q' (map (fun e => (x + cost e, tgt e)) l ++ q).
  Proof.
    intros x c l q Hc. revert q. induction l as [|e l IH]; intros q Hl; [exists q; auto|].
    cbn [fold_outcome]. unfold kshortest_push at 1. rewrite (TGT c e Hc (Hl e (or_introl eq_refl))). cbn [bind].
    destruct (IH (heap_push H (x + cost e, tgt e) q)) as (q' & E & P); [intros y Hy; apply Hl; right; auto|].
    exists q'. split; auto. rewrite P. rewrite (proj1 HOK). cbn [map app]. symmetry. apply Permutation_middle.
  Qed.

  Definition at_c (c : C) (t : W) : bool := if dec (we t) c then true else false.
  Definition many (c : C) (l : list W) : Z := Z.of_nat (length (filter (at_c c) l)).

  Lemma in_at : forall c l t, In t (filter (at_c c) l) <-> In t l /\ we t = c.
  Proof.
    intros c l t. rewrite filter_In. unfold at_c. destruct (dec (we t) c); split; intros [? ?]; split; auto; try discriminate.
  Qed.
  Lemma many_snoc : forall c l t, many c (t :: l) = many c l + (if dec (we t) c then 1 else 0).
  Proof. intros c l t. unfold many. cbn [filter]. unfold at_c at 1. destruct (dec (we t) c); cbn [length]; lia. Qed.

  Lemma nodup_at : forall c l, NoDup (map wk l) -> NoDup (map (@wk C) (filter (at_c c) l)).
  Proof.
    intros c l. induction l as [|t l IH]; intros ND; [constructor|]. cbn [map] in ND. inversion_clear ND.
    cbn [filter]. destruct (at_c c t); auto. cbn [map]. constructor; auto.
    intros Hi. apply H0. apply in_map_iff in Hi. destruct Hi as (u & E & Hu). apply filter_In in Hu.
    apply in_map_iff. exists u. tauto.
  Qed.

  (** [done]: the walks taken from the heap; [grown]: those whose edges were followed; [pend]:
      those in the heap. *)
  Record Inv (st : KState) (done grown pend : list W) : Prop := {
    i_walk : forall t, In t done \/ In t pend -> GW start (wk t) (wc t) (we t) /\ In (we t) nodes;
    i_nodup : NoDup (map wk (done ++ pend));
    i_heap : Permutation (k_heap st) (map pr pend);
    i_len : length (k_counter st) = n;
    i_count : forall c, In c nodes -> nth_error (k_counter st) (idx c) = Some (many c done);
    i_incl : incl grown done;
    i_next : forall t i e, In t grown -> nth_error (out (we t)) i = Some e ->
      let t' := (wk t ++ [i], wc t + cost e, tgt e) in In t' done \/ In t' pend;
    i_full : forall t, In t done -> In t grown \/
      exists l, incl l grown /\ NoDup (map wk l) /\ Z.of_nat (length l) = k /\
        forall u, In u l -> we u = we t /\ wc u <= wc t;
    i_grown : forall c, In c nodes -> many c grown = Z.min k (many c done);
    i_order : forall t u, In t done -> In u pend -> wc t <= wc u;
    i_root : In ([], 0, start) done \/ In ([], 0, start) pend;
    i_parent : forall t, In t done \/ In t pend -> wk t = [] \/
      exists u i, In u grown /\ wk t = wk u ++ [i];
    i_scores : forall c x, k_scores st c = Some x -> In c nodes /\ Ranked (fun w y => GW start w y c) k x;
    i_missing : forall c, In c nodes -> k_scores st c = None <-> many c done < k;
    i_ngrown : NoDup (map wk grown)
  }.

  Section Key.
    Context (st : KState) (done grown pend : list W) (I : Inv st done grown pend)
      (c : C) (bound : Z) (LIM : forall t, In t pend -> bound <= wc t).

    (** A walk that starts with one that was taken was taken as a whole, if it costs less than
        what is left, or else enough others were. *)
    Lemma key : forall r u y, In u done -> GW (we u) r y c -> wc u + y < bound ->
      In (wk u ++ r) (map wk (filter (at_c c) done)) \/ k <= many c done.
    Proof.
      induction r as [|i r IH]; intros u y Hu HW HL.
      - inversion HW; subst. left. rewrite app_nil_r. apply in_map. apply in_at. auto.
      - assert (GR : forall v y', In v grown -> GW (we v) (i :: r) y' c -> wc v + y' < bound ->
          In (wk v ++ i :: r) (map wk (filter (at_c c) done)) \/ k <= many c done).
        { intros v y' Hv HW' HL'. apply gw_inv in HW'. destruct HW' as (e & x & He & HW' & ->).
          destruct (i_walk _ _ _ _ I v (or_introl (i_incl _ _ _ _ I v Hv))) as [_ Hvn].
          pose proof (gw_nonneg tgt cost out nodes NN INN _ _ _ _ HW' (INN _ _ Hvn (nth_error_In _ _ He))) as H0.
          destruct (i_next _ _ _ _ I v i e Hv He) as [Hd|Hp].
          - replace (wk v ++ i :: r) with ((wk v ++ [i]) ++ r) by (rewrite <- app_assoc; auto).
            apply (IH (wk v ++ [i], wc v + cost e, tgt e) x Hd HW'). cbn [wc fst snd]. lia.
          - apply LIM in Hp. cbn [wc fst snd] in Hp. lia. }
        destruct (i_full _ _ _ _ I u Hu) as [Hg|(l & L1 & L2 & L3 & L4)]; [apply (GR u y); auto|].
        assert (ALL : k <= many c done \/ forall v, In v l -> In (wk v ++ i :: r) (map wk (filter (at_c c) done))).
        { destruct (Z_le_gt_dec k (many c done)) as [|Hk]; [auto|]. right. intros v Hv.
          destruct (L4 v Hv) as [E1 E2]. rewrite <- E1 in HW.
          destruct (GR v y (L1 v Hv) HW) as [|]; auto; lia. }
        destruct ALL as [|ALL]; [auto|]. right.
        assert (ND : NoDup (map (fun w => w ++ i :: r) (map wk l))).
        { apply FinFun.Injective_map_NoDup; auto. intros a b Hab. apply app_inv_tail in Hab. auto. }
        assert (HI : incl (map (fun w => w ++ i :: r) (map wk l)) (map wk (filter (at_c c) done))).
        { intros w Hw. apply in_map_iff in Hw. destruct Hw as (w' & <- & Hw). apply in_map_iff in Hw.
          destruct Hw as (v & <- & Hv). auto. }
        pose proof (NoDup_incl_length ND HI) as HN. rewrite !map_length in HN. unfold many. lia.
    Qed.

    Lemma key_start : forall w y, GW start w y c -> y < bound -> many c done < k ->
      In w (map wk (filter (at_c c) done)).
    Proof.
      intros w y HW HL Hk. pose proof (gw_nonneg tgt cost out nodes NN INN _ _ _ _ HW ST) as H0.
      destruct (i_root _ _ _ _ I) as [Hd|Hp].
      - destruct (key w ([], 0, start) y Hd HW) as [|]; [cbn [wc fst snd]; lia|auto|lia].
      - apply LIM in Hp. cbn [wc fst snd] in Hp. lia.
    Qed.
  End Key.

  Definition Post (r : C -> option Z) : Prop :=
    KthCosts (fun c w y => GW start w y c) goal k r.

  Lemma gw_in : forall a w y c, GW a w y c -> In a nodes -> In c nodes.
  Proof.
    induction 1 as [|a i e w x b He HW IH]; auto. intros Ha. apply IH. eapply INN; eauto.
    eapply nth_error_In; eauto.
  Qed.

  Lemma finish : forall st done grown, Inv st done grown [] -> Post (k_scores st).
  Proof.
    intros st done grown I. split.
    - intros c x Hx. exact (proj2 (i_scores _ _ _ _ I c x Hx)).
    - intros _ c Hc l ND HA. destruct (in_dec dec c nodes) as [Hin|Hout].
      + apply (i_missing _ _ _ _ I c Hin) in Hc.
        assert (HI : incl l (map wk (filter (at_c c) done))).
        { intros w Hw. destruct (HA w Hw) as (y & HW).
          apply (key_start st done grown [] I c (y + 1)) with (y := y); auto; [intros t []|lia]. }
        pose proof (NoDup_incl_length ND HI) as HN. rewrite map_length in HN. unfold many in Hc. lia.
      + destruct l as [|w l]; [cbn; lia|]. destruct (HA w (or_introl eq_refl)) as (y & HW).
        exfalso. apply Hout. eapply gw_in; eauto.
  Qed.

  Lemma idx_of : forall c, In c nodes ->
    to_index c = Ok (Z.of_nat (idx c)) /\ (idx c < n)%nat.
  Proof.
    intros c Hc. destruct (idx_ok to_index edges edges_next target nodes out tgt dec IDX ED DEG TGT INN c Hc) as (H1 & H2 & _). auto.
  Qed.

  Lemma idx_eq : forall a b, In a nodes -> In b nodes -> idx a = idx b -> a = b.
  Proof. exact (idx_inj to_index edges edges_next target nodes out tgt dec IDX ED DEG TGT INN). Qed.

  Lemma rank_now : forall st done grown pend t l1 l2, Inv st done grown pend ->
    pend = l1 ++ t :: l2 -> (forall u, In u pend -> wc t <= wc u) -> many (we t) done = k - 1 ->
    Ranked (fun w y => GW start w y (we t)) k (wc t).
  Proof.
    intros st done grown pend t l1 l2 I -> HM HK.
    assert (Ht : In t (l1 ++ t :: l2)) by (apply in_app_iff; right; left; auto).
    pose proof (i_nodup _ _ _ _ I) as ND.
    exists (wk t :: map wk (filter (at_c (we t)) done)). split; [|split; [|split; [|split]]].
    - constructor.
      + intros Hi. apply in_map_iff in Hi. destruct Hi as (u & E & Hu). apply in_at in Hu.
        rewrite map_app in ND. rewrite map_app in ND. cbn [map] in ND. rewrite app_assoc in ND.
        apply NoDup_remove_2 in ND. apply ND. rewrite <- E. apply in_app_iff. left. apply in_app_iff. left.
        apply in_map. tauto.
      + apply nodup_at. rewrite map_app in ND. apply nodup_front in ND. auto.
    - cbn [length]. rewrite map_length. unfold many in HK. lia.
    - intros w [<-|Hw].
      + exists (wc t). split; [|lia]. apply (i_walk _ _ _ _ I). auto.
      + apply in_map_iff in Hw. destruct Hw as (u & <- & Hu). apply in_at in Hu. destruct Hu as [Hu E].
        exists (wc u). split; [|apply (i_order _ _ _ _ I); auto].
        rewrite <- E. apply (i_walk _ _ _ _ I). auto.
    - exists (wk t). split; [left; auto|]. apply (i_walk _ _ _ _ I). auto.
    - intros w y HW. destruct (Z_le_gt_dec (wc t) y) as [|Hy]; [auto|]. left. right.
      apply (key_start _ _ _ _ I (we t) (wc t) HM w y); auto; lia.
  Qed.

  (** The new table. *)
  Lemma count_next : forall st done grown pend t, Inv st done grown pend -> In (we t) nodes ->
    row_get (k_counter st) (Z.of_nat (idx (we t))) = Ok (many (we t) done) /\
    row_set (k_counter st) (Z.of_nat (idx (we t))) (many (we t) done + 1) =
      Ok (list_set (k_counter st) (idx (we t)) (many (we t) done + 1)) /\
    forall c, In c nodes ->
      nth_error (list_set (k_counter st) (idx (we t)) (many (we t) done + 1)) (idx c) =
      Some (many c (t :: done)).
  Proof.
    intros st done grown pend t I Ht. pose proof (i_count _ _ _ _ I _ Ht) as HC.
    assert (HG : row_get (k_counter st) (Z.of_nat (idx (we t))) = Ok (many (we t) done)).
    { unfold row_get. rewrite Nat2Z.id, HC. destruct (Z.ltb_spec (Z.of_nat (idx (we t))) 0); [lia|]. reflexivity. }
    split; auto. split.
    - unfold row_set. rewrite HG. cbn [bind]. rewrite Nat2Z.id. reflexivity.
    - intros c Hc. rewrite many_snoc. destruct (dec (we t) c) as [<-|NE].
      + rewrite nth_error_list_set_eq; [reflexivity|]. apply nth_error_Some. congruence.
      + rewrite nth_error_list_set_neq; [|intros E; apply NE; apply idx_eq; auto].
        rewrite Z.add_0_r. apply (i_count _ _ _ _ I); auto.
  Qed.

  Lemma move_in : forall (t u : W) done l1 l2,
    In u done \/ In u (l1 ++ t :: l2) <-> In u (t :: done) \/ In u (l1 ++ l2).
  Proof. intros. rewrite !in_app_iff. cbn [In]. tauto. Qed.

  Lemma move_nodup : forall (t : W) done l1 l2, NoDup (map wk (done ++ l1 ++ t :: l2)) ->
    NoDup (map wk ((t :: done) ++ l1 ++ l2)).
  Proof.
    intros t done l1 l2. apply Permutation_NoDup. apply Permutation_map. cbn [app].
    rewrite !app_assoc. symmetry. apply Permutation_middle.
  Qed.

  (** A walk too many to its node. *)
  Lemma past_inv : forall st done grown t l1 l2 q, Inv st done grown (l1 ++ t :: l2) ->
    (forall u, In u (l1 ++ t :: l2) -> wc t <= wc u) -> Permutation q (map pr (l1 ++ l2)) ->
    k <= many (we t) done ->
    Inv (mkK (list_set (k_counter st) (idx (we t)) (many (we t) done + 1)) (k_scores st) q)
      (t :: done) grown (l1 ++ l2).
  Proof.
    intros st done grown t l1 l2 q I HM HQ HK.
    assert (Ht : In t (l1 ++ t :: l2)) by (apply in_app_iff; right; left; auto).
    destruct (i_walk _ _ _ _ I t (or_intror Ht)) as [Hw Hn].
    destruct (count_next _ _ _ _ _ I Hn) as (_ & _ & HC).
    constructor; cbn [k_counter k_scores k_heap].
    - intros u Hu. apply (i_walk _ _ _ _ I). apply move_in. auto.
    - apply move_nodup. exact (i_nodup _ _ _ _ I).
    - exact HQ.
    - rewrite list_set_length. exact (i_len _ _ _ _ I).
    - exact HC.
    - intros u Hu. right. apply (i_incl _ _ _ _ I); auto.
    - intros u i e Hu He. apply move_in. apply (i_next _ _ _ _ I); auto.
    - intros u [<-|Hu]; [|exact (i_full _ _ _ _ I u Hu)]. right.
      exists (filter (at_c (we t)) grown). split; [intros u Hu; apply in_at in Hu; tauto|].
      split; [apply nodup_at; exact (i_ngrown _ _ _ _ I)|].
      split; [pose proof (i_grown _ _ _ _ I _ Hn) as HG; unfold many in *; lia|].
      intros u Hu. apply in_at in Hu. destruct Hu as [Hu HE]. split; auto.
      apply (i_order _ _ _ _ I); auto. apply (i_incl _ _ _ _ I); auto.
    - intros c Hc. rewrite many_snoc, (i_grown _ _ _ _ I c Hc).
      destruct (dec (we t) c) as [<-|]; lia.
    - intros u v [<-|Hu] Hv.
      + apply HM. rewrite in_app_iff in *. cbn [In]. tauto.
      + apply (i_order _ _ _ _ I); auto. rewrite in_app_iff in *. cbn [In]. tauto.
    - apply move_in. exact (i_root _ _ _ _ I).
    - intros u Hu. apply (i_parent _ _ _ _ I). apply move_in. auto.
    - exact (i_scores _ _ _ _ I).
    - intros c Hc. rewrite (i_missing _ _ _ _ I c Hc), many_snoc. destruct (dec (we t) c) as [<-|]; lia.
    - exact (i_ngrown _ _ _ _ I).
  Qed.

  (** A walk that is followed. *)
  Lemma grow_inv : forall st done grown t l1 l2 q scores, Inv st done grown (l1 ++ t :: l2) ->
    (forall u, In u (l1 ++ t :: l2) -> wc t <= wc u) ->
    Permutation q (map pr (ext tgt cost (wk t) (wc t) 0 (out (we t)) ++ l1 ++ l2)) ->
    many (we t) done < k ->
    (forall c x, scores c = Some x -> In c nodes /\ Ranked (fun w y => GW start w y c) k x) ->
    (forall c, In c nodes -> scores c = None <-> many c (t :: done) < k) ->
    Inv (mkK (list_set (k_counter st) (idx (we t)) (many (we t) done + 1)) scores q)
      (t :: done) (t :: grown) (ext tgt cost (wk t) (wc t) 0 (out (we t)) ++ l1 ++ l2).
  Proof.
    intros st done grown t l1 l2 q scores I HM HQ HK HS1 HS2.
    assert (Ht : In t (l1 ++ t :: l2)) by (apply in_app_iff; right; left; auto).
    destruct (i_walk _ _ _ _ I t (or_intror Ht)) as [Hw Hn].
    destruct (count_next _ _ _ _ _ I Hn) as (_ & _ & HC).
    pose proof (i_nodup _ _ _ _ I) as ND. pose proof (move_nodup _ _ _ _ ND) as ND'.
    assert (NT : ~ In (wk t) (map wk grown)).
    { intros Hi. apply in_map_iff in Hi. destruct Hi as (u & E & Hu). apply (i_incl _ _ _ _ I) in Hu.
      cbn [app map] in ND'. inversion_clear ND'. apply H0. rewrite <- E. apply in_map. apply in_app_iff. auto. }
    constructor; cbn [k_counter k_scores k_heap].
    - intros u Hu. rewrite in_app_iff in Hu.
      assert (Hu' : In u (ext tgt cost (wk t) (wc t) 0 (out (we t))) \/ In u (t :: done) \/ In u (l1 ++ l2)) by tauto.
      destruct Hu' as [Hx|Hu']; [|apply (i_walk _ _ _ _ I); apply move_in; auto].
      apply in_ext in Hx. destruct Hx as (i & e & He & ->). cbn [wk wc we fst snd Nat.add].
      split; [apply gw_snoc with (b := we t); auto|].
      apply INN with (c := we t); auto. eapply nth_error_In; eauto.
    - apply (Permutation_NoDup (l := map wk (ext tgt cost (wk t) (wc t) 0 (out (we t)) ++ (t :: done) ++ l1 ++ l2))).
      { apply Permutation_map. rewrite !app_assoc. apply Permutation_app_tail. apply Permutation_app_tail.
        apply Permutation_app_comm. }
      rewrite map_app. apply nodup_join; [apply ext_nodup|exact ND'|].
      intros w Hw1 Hw2. apply in_map_iff in Hw1. destruct Hw1 as (u & <- & Hu). apply in_ext in Hu.
      destruct Hu as (i & e & He & ->). cbn [wk fst snd Nat.add] in Hw2.
      apply in_map_iff in Hw2. destruct Hw2 as (v & E & Hv). rewrite in_app_iff in Hv.
      apply move_in in Hv. destruct (i_parent _ _ _ _ I v Hv) as [E0|(u & j & Hu & E0)].
      + rewrite E0 in E. destruct (wk t); discriminate.
      + rewrite E0 in E. apply app_inj_tail in E. destruct E as [E _]. apply NT. fold (wk t) in E. rewrite <- E.
        apply in_map. auto.
    - exact HQ.
    - rewrite list_set_length. exact (i_len _ _ _ _ I).
    - exact HC.
    - intros u [<-|Hu]; [left; auto|right; apply (i_incl _ _ _ _ I); auto].
    - intros u i e [<-|Hu] He.
      + right. apply in_app_iff. left. apply in_ext. exists i, e. auto.
      + pose proof (proj1 (move_in _ _ _ _ _) (i_next _ _ _ _ I u i e Hu He)) as Hx.
        rewrite (in_app_iff (ext _ _ _ _ _ _)). tauto.
    - intros u [<-|Hu]; [left; left; auto|].
      destruct (i_full _ _ _ _ I u Hu) as [|(l & L1 & L2)]; [left; right; auto|right].
      exists l. split; auto. intros v Hv. right. auto.
    - intros c Hc. rewrite !many_snoc, (i_grown _ _ _ _ I c Hc).
      destruct (dec (we t) c) as [<-|]; lia.
    - intros u v Hu Hv. assert (Hut : wc u <= wc t).
      { destruct Hu as [<-|Hu]; [lia|]. apply (i_order _ _ _ _ I); auto. }
      apply in_app_iff in Hv. destruct Hv as [Hv|Hv].
      + apply in_ext in Hv. destruct Hv as (i & e & He & ->). cbn [wc fst snd]. pose proof (NN _ e Hn (nth_error_In _ _ He)).
        unfold wc in *. lia.
      + assert (wc t <= wc v); [|lia]. apply HM. rewrite in_app_iff in *. cbn [In]. tauto.
    - pose proof (proj1 (move_in _ _ _ _ _) (i_root _ _ _ _ I)) as Hx. rewrite (in_app_iff (ext _ _ _ _ _ _)). tauto.
    - intros u Hu. rewrite in_app_iff in Hu.
      assert (Hu' : In u (ext tgt cost (wk t) (wc t) 0 (out (we t))) \/ In u (t :: done) \/ In u (l1 ++ l2)) by tauto.
      destruct Hu' as [Hx|Hu'].
      + apply in_ext in Hx. destruct Hx as (i & e & He & ->). right. exists t, i. split; [left; auto|reflexivity].
      + apply move_in in Hu'. destruct (i_parent _ _ _ _ I u Hu') as [|(v & i & Hv & E)]; [auto|].
        right. exists v, i. split; [right; auto|auto].
    - exact HS1.
    - exact HS2.
    - cbn [map]. constructor; auto. exact (i_ngrown _ _ _ _ I).
  Qed.

  Lemma run_ok : forall a b st done grown pend, Inv st done grown pend ->
    (left_over k (k_counter st) <= a)%nat -> (length pend <= b)%nat ->
    exists r, Returns round st r /\ Post r.
  Proof.
    induction a as [a IHa] using (well_founded_induction Wf_nat.lt_wf).
    induction b as [b IHb] using (well_founded_induction Wf_nat.lt_wf).
    intros st done grown pend I HA HB.
    pose proof (proj2 HOK (k_heap st)) as HP. pose proof (i_heap _ _ _ _ I) as HH.
    destruct (heap_pop H (k_heap st)) as [[[x c] q]|] eqn:EP.
    2:{ rewrite HP in HH. apply Permutation_nil in HH. destruct pend; [|discriminate].
        exists (k_scores st). split; [|eapply finish; eauto]. apply returns_now.
        unfold kshortest_round. rewrite EP. reflexivity. }
    destruct HP as [HP1 HP2]. rewrite HH in HP1.
    destruct (perm_pick _ _ _ _ _ _ HP1) as (t & l1 & l2 & -> & Et & HQ).
    assert (Ht : In t (l1 ++ t :: l2)) by (apply in_app_iff; right; left; auto).
    assert (HM : forall u, In u (l1 ++ t :: l2) -> wc t <= wc u).
    { intros u Hu. assert (Hi : In (pr u) (k_heap st)) by (rewrite HH; apply in_map; auto).
      apply HP2 in Hi. cbn [fst pr] in Hi. unfold pr in Et. injection Et as E1 E2. lia. }
    unfold pr in Et. injection Et as E1 E2. subst x c.
    destruct (i_walk _ _ _ _ I t (or_intror Ht)) as [Hw Hn].
    destruct (count_next _ _ _ _ _ I Hn) as (R1 & R2 & R3).
    destruct (idx_of _ Hn) as [X1 X2].
    destruct (Z_le_gt_dec k (many (we t) done)) as [HK|HK].
    - destruct (IHb (length (l1 ++ l2))) with (st := mkK (list_set (k_counter st) (idx (we t)) (many (we t) done + 1)) (k_scores st) q)
        (done := t :: done) (grown := grown) (pend := l1 ++ l2) as (r & RR & RP).
      + rewrite app_length in *. cbn [length] in HB. lia.
      + apply past_inv; auto. symmetry. auto.
      + cbn [k_counter]. rewrite left_over_past; auto. exact (i_count _ _ _ _ I _ Hn).
      + auto.
      + exists r. split; auto. eapply returns_later; [|exact RR].
        unfold kshortest_round. rewrite EP, X1. cbn [bind]. rewrite R1. cbn [bind]. rewrite R2. cbn [bind].
        destruct (Z.ltb_spec k (many (we t) done + 1)); [|lia]. reflexivity.
    - set (scores := if many (we t) done + 1 =? k
                     then map_insert eqb (k_scores st) (we t) (wc t) else k_scores st).
      assert (HS1 : forall c x, scores c = Some x -> In c nodes /\ Ranked (fun w y => GW start w y c) k x).
      { intros c x. unfold scores. destruct (Z.eqb_spec (many (we t) done + 1) k) as [HE|]; [|apply (i_scores _ _ _ _ I)].
        unfold map_insert. destruct (eqb c (we t)) eqn:EE; [|apply (i_scores _ _ _ _ I)].
        apply EQB in EE. subst c. intros [= <-]. split; auto.
        apply (rank_now st done grown (l1 ++ t :: l2) t l1 l2); auto. lia. }
      assert (HS2 : forall c, In c nodes -> scores c = None <-> many c (t :: done) < k).
      { intros c Hc. rewrite many_snoc. unfold scores.
        pose proof (i_missing _ _ _ _ I c Hc) as HI.
        destruct (Z.eqb_spec (many (we t) done + 1) k) as [HE|HE]; unfold map_insert.
        - destruct (eqb c (we t)) eqn:EE.
          + apply EQB in EE. subst c. destruct (dec (we t) (we t)); [|congruence]. split; [discriminate|lia].
          + destruct (dec (we t) c) as [<-|]; [|rewrite HI; lia].
            exfalso. rewrite (proj2 (EQB _ _) eq_refl) in EE. discriminate.
        - rewrite HI. destruct (dec (we t) c) as [<-|]; lia. }
      assert (STEP : round st =
        (if match goal with Some b => eqb b (we t) | None => false end && (many (we t) done + 1 =? k)
         then Ok (inr scores) else
         let! it := edges (we t) in
         let! q := for_each edges_next it (kshortest_push H target cost (wc t)) q in
         Ok (inl (mkK (list_set (k_counter st) (idx (we t)) (many (we t) done + 1)) scores q)))).
      { unfold kshortest_round. rewrite EP, X1. cbn [bind]. rewrite R1. cbn [bind]. rewrite R2. cbn [bind].
        destruct (Z.ltb_spec k (many (we t) done + 1)); [lia|]. reflexivity. }
      destruct (match goal with Some b => eqb b (we t) | None => false end && (many (we t) done + 1 =? k)) eqn:EG.
      + exists scores. split; [apply returns_now; exact STEP|]. split; [intros c x Hx; apply HS1; auto|].
        apply andb_true_iff in EG. destruct EG as [EG1 EG2]. destruct goal as [b0|]; [|discriminate].
        apply EQB in EG1. subst b0. intros HN. exfalso. unfold scores in HN. rewrite EG2 in HN.
        unfold map_insert in HN. rewrite (proj2 (EQB _ _) eq_refl) in HN. discriminate.
      + destruct (ED _ Hn) as (it & E1 & D1).
        destruct (push_all (wc t) (we t) (out (we t)) q Hn (fun y Hy => Hy)) as (q' & Q1 & Q2).
        destruct (IHa (left_over k (list_set (k_counter st) (idx (we t)) (many (we t) done + 1)))) with
          (b := length (ext tgt cost (wk t) (wc t) 0 (out (we t)) ++ l1 ++ l2))
          (st := mkK (list_set (k_counter st) (idx (we t)) (many (we t) done + 1)) scores q')
          (done := t :: done) (grown := t :: grown)
          (pend := ext tgt cost (wk t) (wc t) 0 (out (we t)) ++ l1 ++ l2) as (r & RR & RP).
        * pose proof (left_over_set k (k_counter st) (idx (we t)) (many (we t) done) (i_count _ _ _ _ I _ Hn)). lia.
        * apply grow_inv; auto; [|lia]. rewrite map_app, ext_pr, HQ. exact Q2.
        * cbn [k_counter]. lia.
        * lia.
        * exists r. split; auto. eapply returns_later; [|exact RR]. rewrite STEP, E1. cbn [bind].
          rewrite (for_each_exact _ _ _ _ _ _ _ _ D1 (DEG _ Hn)), Q1. reflexivity.
  Qed.

  Lemma kshortest_ok : exists st r, kshortest_init H count start = Ok st /\ Returns round st r /\ Post r.
  Proof.
    unfold kshortest_init. rewrite CNT. cbn [bind]. eexists. 
    set (st := mkK (repeat 0 (Z.to_nat (Z.of_nat n))) (fun _ => None) (heap_push H (0, start) [])).
    assert (I : Inv st [] [] [([], 0, start)]).
    { constructor; cbn [k_counter k_scores k_heap st].
      - intros t [[]|[<-|[]]]. split; auto. constructor.
      - cbn. constructor; [intros []|constructor].
      - rewrite (proj1 HOK). reflexivity.
      - rewrite repeat_length. lia.
      - intros c Hc. destruct (idx_of c Hc) as [_ HL].
        rewrite nth_error_repeat by lia. reflexivity.
      - intros t [].
      - intros t i e [].
      - intros t [].
      - intros c Hc. unfold many. cbn. lia.
      - intros t u [].
      - right. left. auto.
      - intros t [[]|[<-|[]]]. left. reflexivity.
      - discriminate.
      - intros c Hc. unfold many. cbn. split; [lia|auto].
      - constructor. }
    destruct (run_ok _ _ _ _ _ _ I (Nat.le_refl _) (Nat.le_refl _)) as (r & R1 & R2).
    exists r. split; [reflexivity|]. split; auto.
  Qed.
End KShortest.

(** Of no walks nothing is the least. *)
Lemma kshortest_zero : forall C Ed It (eqb : C -> C -> bool) (H : HeapOps C) count to_index
  (edges : C -> outcome It) (next : It -> outcome (option Ed * It)) target cost goal (nodes : list C) start,
  HeapOK H -> count = Ok (Z.of_nat (length nodes)) ->
  (forall i c, nth_error nodes i = Some c -> to_index c = Ok (Z.of_nat i)) -> In start nodes ->
  exists st, kshortest_init H count start = Ok st /\
    Returns (kshortest_round eqb H to_index edges next target cost goal 0) st (fun _ => None).
Proof.
  intros C Ed It eqb H count to_index edges next target cost goal nodes start HOK CNT IDX Hs.
  unfold kshortest_init. rewrite CNT. cbn [bind]. eexists. split; [reflexivity|].
  apply In_nth_error in Hs. destruct Hs as (i & Hi). pose proof (IDX i start Hi) as Hx.
  assert (HL : (i < length nodes)%nat) by (apply nth_error_Some; congruence).
  pose proof (proj2 HOK (heap_push H (0, start) [])) as HP. pose proof (proj1 HOK (0, start) []) as HQ.
  destruct (heap_pop H (heap_push H (0, start) [])) as [[[x c] q]|] eqn:EP.
  2:{ rewrite HP in HQ. apply Permutation_nil in HQ. discriminate. }
  destruct HP as [HP _]. rewrite HQ in HP. apply Permutation_length_1_inv in HP. injection HP as E1 E2 E3. subst x c q.
  assert (G : row_get (repeat 0 (Z.to_nat (Z.of_nat (length nodes)))) (Z.of_nat i) = Ok 0).
  { unfold row_get. destruct (Z.ltb_spec (Z.of_nat i) 0); [lia|]. rewrite Nat2Z.id, nth_error_repeat by lia. reflexivity. }
  eapply returns_later.
  { unfold kshortest_round. cbn [k_heap]. rewrite EP, Hx. cbn [bind k_counter]. rewrite G. cbn [bind].
    unfold row_set. rewrite G. cbn [bind]. cbn [Z.ltb Z.add Z.compare]. reflexivity. }
  apply returns_now. unfold kshortest_round. cbn [k_heap].
  pose proof (proj2 HOK []) as H0. destruct (heap_pop H []) as [[y q]|]; [|reflexivity].
  destruct H0 as [H0 _]. apply Permutation_nil in H0. discriminate.
Qed.
