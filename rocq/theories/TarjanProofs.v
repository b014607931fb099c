(** * TarjanProofs: [tarjan_scc] finds the strongly connected components. *)

From Verif Require Import Machine Store Traverse Tarjan Basics TraverseProofs Spec11 AnySearch
  SccProofs.
From Coq Require Import ZifyBool ZifyNat Permutation.

Lemma nth_error_snoc : forall X (l : list X) x i y, nth_error (l ++ [x]) i = Some y ->
  nth_error l i = Some y \/ (i = length l /\ y = x).
Proof.
  intros X l x i y H. destruct (Nat.lt_trichotomy i (length l)) as [L|[->|L]].
  - rewrite nth_error_app1 in H by auto. auto.
  - rewrite nth_error_app2, Nat.sub_diag in H by auto. cbn in H. injection H as <-. auto.
  - rewrite nth_error_app2 in H by lia. destruct (i - length l)%nat as [|[]] eqn:E; [lia| |]; discriminate.
Qed.

Lemma nth_error_inj : forall X (l : list X) i j x, NoDup l ->
  nth_error l i = Some x -> nth_error l j = Some x -> i = j.
Proof.
  intros X l i j x H Hi Hj. eapply NoDup_nth_error; eauto.
  - apply nth_error_Some. congruence.
  - congruence.
Qed.

Lemma nodup_left : forall X (l1 l2 : list X), NoDup (l1 ++ l2) -> NoDup l1.
Proof.
  intros X. induction l1 as [|a l1 IH]; intros l2 H; [constructor|].
  cbn [app] in H. inversion H as [|? ? Hn Hd]; subst. constructor; eauto.
  intros Ha. apply Hn. apply in_or_app. auto.
Qed.

Section Any.
  Context {C It Ids : Type} (m : mode) (ids : Ids) (ids_next : Ids -> outcome (option C * Ids))
    (nb : C -> It) (nb_next : C -> It -> outcome (option C * It))
    (bound : outcome Z) (to_index : C -> outcome Z)
    (dec : forall a b : C, {a = b} + {a <> b})
    (board : list C) (raw : C -> list C) (ix : C -> nat)
    (Hids : Drains ids_next ids board) (Hnd : NoDup board)
    (Hnb : forall c, In c board -> Drains (nb_next c) (nb c) (raw c))
    (Hfew : forall c, In c board -> (length (raw c) <= 8)%nat)
    (Hbound : bound = Ok (Z.of_nat (length board)))
    (Hix : forall c, In c board -> to_index c = Ok (Z.of_nat (ix c)) /\ (ix c < length board)%nat)
    (Hinj : forall a b, In a board -> In b board -> ix a = ix b -> a = b)
    (Hoff : forall c x, In c board -> In x (raw c) -> ~ In x board -> to_index x = Fail FPanic)
    (Hlen : Z.of_nat (length board) <= 2 ^ 63).

  Notation leads a c := (exists n, Reached nb nb_next board a n c).
  Notation root_of := (root_of to_index).
  Notation set_root := (set_root to_index).
  Notation visit := (tarjan_visit m nb nb_next to_index).
  Notation pop := (tarjan_pop m to_index).

  (** A node lists one that is not on the board. *)
  Definition stray : Prop := exists c x, In c board /\ In x (raw c) /\ ~ In x board.

  Definition R (st : Tarjan (C := C)) (c : C) : option Z :=
    match nth_error (ta_nodes st) (ix c) with Some x => x | None => None end.

  Lemma root_ok : forall st c, length (ta_nodes st) = length board -> In c board ->
    root_of st c = Ok (R st c).
  Proof using Hix.
    clear - Hix.
    intros st c HL Hc. destruct (Hix c Hc) as [H1 H2]. unfold Tarjan.root_of, R. rewrite H1. cbn [bind].
    replace (Z.of_nat (ix c) <? 0) with false by lia. rewrite Nat2Z.id.
    destruct (nth_error (ta_nodes st) (ix c)) eqn:E; [reflexivity|].
    apply nth_error_None in E. lia.
  Qed.

  Lemma set_ok : forall st c x, length (ta_nodes st) = length board -> In c board ->
    exists st', set_root st c x = Ok st' /\ R st' c = x /\
      (forall d, In d board -> d <> c -> R st' d = R st d) /\
      ta_index st' = ta_index st /\ ta_count st' = ta_count st /\
      ta_stack st' = ta_stack st /\ ta_sccs st' = ta_sccs st /\
      length (ta_nodes st') = length board.
  Proof using Hix Hinj.
    clear - Hix Hinj.
    intros st c x HL Hc. destruct (Hix c Hc) as [H1 H2]. unfold Tarjan.set_root.
    rewrite root_ok by auto. rewrite H1. cbn [bind]. eexists. split; [reflexivity|].
    cbn [ta_index ta_count ta_stack ta_sccs ta_nodes]. rewrite Nat2Z.id. unfold R. cbn [ta_nodes].
    split; [|split].
    - rewrite nth_error_list_set_eq by lia. reflexivity.
    - intros d Hd Hn. rewrite nth_error_list_set_neq; [reflexivity|]. intros E. apply Hn.
      symmetry. auto.
    - rewrite list_set_length. auto 6.
  Qed.

  Notation done st := (concat (ta_sccs st)).

  (** The components found are right, and nothing leads from one to a later one. *)
  Definition good (ls : list (list C)) : Prop := forall l1 l l2, ls = l1 ++ l :: l2 ->
    l <> [] /\
    (forall a, In a l -> forall b, In b l <-> leads a b /\ leads b a) /\
    (forall a b, In a l -> In b (raw a) -> In b (concat l1 ++ l)).

  Record inv (act : list C) (st : Tarjan (C := C)) : Prop := {
    i_len : length (ta_nodes st) = length board;
    i_nd : NoDup (act ++ done st);
    i_in : incl (act ++ done st) board;
    i_idx : ta_index st = Z.of_nat (S (length act));
    i_cnt : ta_count st = USIZE - 1 - Z.of_nat (length (ta_sccs st));
    i_few : (length (ta_sccs st) <= length (done st))%nat;
    i_none : forall c, In c board -> ~ In c (act ++ done st) -> R st c = None;
    i_done : forall c, In c (done st) -> exists z, R st c = Some z /\ ta_count st < z;
    i_act : forall i c, nth_error act i = Some c ->
      exists k t, (k <= i)%nat /\ R st c = Some (Z.of_nat (S k)) /\ nth_error act k = Some t /\ leads c t;
    i_stack : forall c, In c (ta_stack st) -> exists i k, nth_error act i = Some c /\ (k < i)%nat /\
      R st c = Some (Z.of_nat (S k));
    i_good : good (ta_sccs st)
  }.

  Lemma inv_size : forall act st, inv act st ->
    (length act + length (done st) <= length board)%nat.
  Proof using.
    clear.
    intros act st I. rewrite <- app_length. apply NoDup_incl_length; [apply I | apply I].
  Qed.

  Lemma good_closed : forall ls, good ls -> forall a b, In a (concat ls) -> In b (raw a) ->
    In b (concat ls).
  Proof using.
    clear.
    intros ls G a b Ha Hb. apply in_concat in Ha. destruct Ha as (l & Hl & Ha).
    apply in_split in Hl. destruct Hl as (l1 & l2 & ->).
    destruct (G l1 l l2 eq_refl) as (_ & _ & K). specialize (K a b Ha Hb).
    rewrite concat_app. cbn [concat]. rewrite app_assoc. apply in_or_app. auto.
  Qed.

  Lemma leads_closed : forall M, (forall c x, In c M -> In x (raw c) -> In x board -> In x M) ->
    incl M board -> forall a b, In a M -> leads a b -> In b M.
  Proof using Hnb.
    clear - Hnb.
    intros M HM HI a b Ha (n & H). induction H as [|n b c l H IH H1 H2 H3]; auto.
    apply (HM b); auto. rewrite (Drains_det _ _ _ _ (Hnb b (HI b IH)) H1). auto.
  Qed.

  Lemma leads_more : forall a b c, leads a b -> In b board -> In c (raw b) -> In c board -> leads a c.
  Proof using Hnb.
    clear - Hnb.
    intros a b c (n & H) Hb Hc Hcb. exists (S n). eapply reached_step; eauto.
  Qed.

  Lemma leads_tr : forall a b c, leads a b -> leads b c -> leads a c.
  Proof using.
    intros a b c (n & H1) (k & H2). exists (k + n)%nat. eapply reached_trans; eauto. Qed.

  Lemma leads_self : forall a, leads a a.
  Proof using. intros a. exists 0%nat. constructor. Qed.

  (** ** Taking a component off the stack *)
  Lemma pop_ok : forall v a c se stack0 popped adj st,
    length (ta_nodes st) = length board -> In v board -> incl (se ++ stack0) board ->
    NoDup se -> (forall x, In x se -> ~ In x stack0) -> ~ In v (se ++ stack0) ->
    R st v = Some (Z.of_nat (S a)) ->
    (forall x, In x se -> exists k, R st x = Some (Z.of_nat (S k)) /\ (a <= k)%nat) ->
    (forall x, In x stack0 -> exists k, R st x = Some (Z.of_nat (S k)) /\ (k < a)%nat) ->
    0 <= adj -> adj + Z.of_nat (length se) < USIZE ->
    exists st', pop v c (se ++ stack0) popped adj st =
        Ok (adj + Z.of_nat (length se), rev se ++ popped, stack0, st') /\
      (forall d, In d se -> R st' d = c) /\
      (forall d, In d board -> ~ In d se -> R st' d = R st d) /\
      ta_index st' = ta_index st /\ ta_count st' = ta_count st /\
      ta_sccs st' = ta_sccs st /\ length (ta_nodes st') = length board.
  Proof using Hix Hinj.
    clear - Hix Hinj.
    intros v a c. induction se as [|w se IH]; intros stack0 popped adj st HL Hv HI HN HX Hnv HR HS H0 Ha Hs.
    - exists st. cbn [app rev length Z.of_nat]. replace (adj + 0) with adj by lia.
      split; [|split; [intros d []|auto 6]].
      destruct stack0 as [|w rest]; [reflexivity|]. cbn [tarjan_pop].
      assert (Hw : In w board) by (apply HI; left; auto).
      rewrite !root_ok by auto. cbn [bind]. rewrite HR.
      destruct (H0 w (or_introl eq_refl)) as (k & E & L). rewrite E. cbn [root_ltb].
      replace (Z.of_nat (S k) <? Z.of_nat (S a)) with true by lia. reflexivity.
    - cbn [app tarjan_pop]. assert (Hw : In w board) by (apply HI; left; auto).
      rewrite !root_ok by auto. cbn [bind]. rewrite HR.
      destruct (HS w (or_introl eq_refl)) as (k & E & L). rewrite E. cbn [root_ltb].
      replace (Z.of_nat (S k) <? Z.of_nat (S a)) with false by lia.
      destruct (set_ok st w c HL Hw) as (st1 & E1 & E2 & E3 & E4 & E5 & E6 & E7 & E8).
      rewrite E1. cbn [bind]. rewrite usize_add_ok by (cbn [length] in Hs; lia). cbn [bind].
      inversion HN as [|? ? HN1 HN2]; subst.
      assert (Hx : forall x, In x (se ++ stack0) -> R st1 x = R st x).
      { intros x Hx. apply E3; [apply HI; right; auto|]. intros ->. apply in_app_or in Hx.
        destruct Hx as [Hx|Hx]; [contradiction|]. apply (HX w); auto. left; auto. }
      destruct (IH stack0 (w :: popped) (adj + 1) st1) as (st2 & F1 & F2 & F3 & F4 & F5 & F6 & F7); auto.
      + intros x Hx'. apply HI. right. auto.
      + intros x Hx'. apply HX. right. auto.
      + intros Hx'. apply Hnv. right. auto.
      + rewrite E3; auto. intros ->. apply Hnv. left. auto.
      + intros x Hx'. rewrite Hx by (apply in_or_app; auto). apply HS. right; auto.
      + intros x Hx'. rewrite Hx by (apply in_or_app; auto). auto.
      + lia.
      + cbn [length] in Hs. lia.
      + exists st2. split; [|split; [|split; [|repeat split; congruence]]].
        * rewrite F1. cbn [rev length]. rewrite <- app_assoc. cbn [app]. f_equal. f_equal. f_equal. f_equal. lia.
        * intros d [<-|Hd]; [|auto].
          rewrite F3; auto.
        * intros d Hd Hn. rewrite F3 by (auto; intros X; apply Hn; right; auto).
          apply E3; auto. intros ->. apply Hn. left. auto.
  Qed.

  (** ** A visit *)

  (** What holds after the visit of [v], entered with the active nodes [act] in state [st]. *)
  Definition after (v : C) (act : list C) (st st' : Tarjan (C := C)) : Prop :=
    exists ext se new,
      inv (act ++ ext) st' /\ ta_stack st' = se ++ ta_stack st /\ Permutation se ext /\
      ta_sccs st' = ta_sccs st ++ new /\
      (forall c, In c act -> R st' c = R st c) /\
      In v (ext ++ done st') /\
      (forall c, In c ext -> leads v c) /\
      (forall c d, In c ext -> In d (raw c) -> In d ((act ++ ext) ++ done st')) /\
      (ext = [] \/ exists k, In v ext /\ (k < length act)%nat /\ R st' v = Some (Z.of_nat (S k)) /\
         (forall x kx, In x ext -> R st' x = Some (Z.of_nat (S kx)) -> (k <= kx)%nat) /\
         (forall x d j, In x ext -> In d (raw x) -> nth_error (act ++ ext) j = Some d -> (k <= j)%nat)).

  (** What holds in the loop over the neighbours of [v], after those in [pre]. *)
  Definition within (v : C) (act : list C) (st : Tarjan (C := C)) (pre : list C)
    (root : bool) (s : Tarjan (C := C)) : Prop :=
    exists ext se new k,
      inv (act ++ v :: ext) s /\ ta_stack s = se ++ ta_stack st /\ Permutation se ext /\
      ta_sccs s = ta_sccs st ++ new /\
      (forall c, In c act -> R s c = R st c) /\
      (forall c, In c ext -> leads v c) /\
      (forall c d, In c ext -> In d (raw c) -> In d ((act ++ v :: ext) ++ done s)) /\
      R s v = Some (Z.of_nat (S k)) /\ (k <= length act)%nat /\
      (root = true <-> k = length act) /\
      (forall x kx, In x ext -> R s x = Some (Z.of_nat (S kx)) -> (k <= kx)%nat) /\
      (forall x d j, In x ext -> In d (raw x) -> nth_error (act ++ v :: ext) j = Some d -> (k <= j)%nat) /\
      (forall d, In d pre -> In d ((act ++ v :: ext) ++ done s)) /\
      (forall d j, In d pre -> nth_error (act ++ v :: ext) j = Some d -> (k <= j)%nat).

  Lemma count_big : forall act st, inv act st -> ta_index st <= Z.of_nat (S (length board)) /\
    Z.of_nat (S (length act)) < ta_count st /\ ta_count st < USIZE.
  Proof using Hlen.
    clear - Hlen. intros act st I. pose proof (inv_size _ _ I). pose proof (i_few _ _ I).
    rewrite (i_idx _ _ I), (i_cnt _ _ I), USIZE_val. change (2 ^ 63) with 9223372036854775808 in Hlen. lia.
  Qed.

  (** Entering [v]. *)
  Lemma enter_ok : forall v act st, inv act st -> In v board -> ~ In v (act ++ done st) ->
    exists s, set_root st v (non_zero (ta_index st)) = Ok s /\
      usize_add m (ta_index s) 1 = Ok (ta_index s + 1) /\
      within v act st [] true
        (mkTarjan (ta_index s + 1) (ta_count s) (ta_nodes s) (ta_stack s) (ta_sccs s)).
  Proof using Hix Hinj Hlen.
    clear - Hix Hinj Hlen. intros v act st I Hv Hn. pose proof (count_big _ _ I) as B.
    destruct (set_ok st v (non_zero (ta_index st)) (i_len _ _ I) Hv) as (s & E1 & E2 & E3 & E4 & E5 & E6 & E7 & E8).
    exists s. split; [exact E1|]. rewrite E4.
    split; [apply usize_add_ok; rewrite (i_idx _ _ I) in *; lia|].
    set (s1 := mkTarjan _ _ _ _ _).
    assert (R1 : forall d, R s1 d = R s d) by reflexivity.
    assert (Ra : forall d, In d (act ++ done st) -> R s1 d = R st d).
    { intros d Hd. rewrite R1. apply E3; [apply (i_in _ _ I); auto|]. intros ->. contradiction. }
    assert (Rv : R s1 v = Some (Z.of_nat (S (length act)))).
    { rewrite R1, E2, (i_idx _ _ I). unfold non_zero.
      replace (Z.of_nat (S (length act)) =? 0) with false by lia. reflexivity. }
    exists [], [], [], (length act).
    split; [|cbn [s1 ta_stack ta_sccs]; rewrite E6, E7, app_nil_r; cbn [app];
             repeat (split; [solve [auto | intros; contradiction | constructor | rewrite Ra; auto; apply in_or_app; auto
                    | intros c Hc; apply Ra; apply in_or_app; auto
                    | intros c []| intros c d [] | intros; tauto]|]); intros d j []].
    constructor; cbn [s1 ta_index ta_count ta_nodes ta_stack ta_sccs]; rewrite ?E6, ?E7, ?E5.
    - exact E8.
    - apply (NoDup_Add (a := v) (l := act ++ done st)).
      + rewrite <- app_assoc. apply Add_app.
      + split; [apply I | auto].
    - intros d Hd. rewrite <- app_assoc in Hd. apply in_app_or in Hd.
      destruct Hd as [Hd|[<-|Hd]]; auto; apply (i_in _ _ I); apply in_or_app; auto.
    - rewrite app_length, (i_idx _ _ I). cbn [length]. lia.
    - apply I.
    - apply I.
    - intros c Hc Hd. rewrite R1, E3; auto.
      + apply (i_none _ _ I); auto. intros X. apply Hd. rewrite <- app_assoc. apply in_app_or in X.
        apply in_or_app. destruct X; [auto|]. right. right. auto.
      + intros ->. apply Hd. rewrite <- app_assoc. apply in_or_app. right. left. auto.
    - intros c Hc. rewrite Ra by (apply in_or_app; auto). apply I. auto.
    - intros i c Hi. apply nth_error_snoc in Hi. destruct Hi as [Hi|[-> ->]].
      + destruct (i_act _ _ I i c Hi) as (k & t & K1 & K2 & K3 & K4). exists k, t.
        rewrite Ra by (apply in_or_app; left; eapply nth_error_In; eauto).
        rewrite nth_error_app1 by (apply nth_error_Some; congruence). auto.
      + exists (length act), v. rewrite nth_error_app2, Nat.sub_diag by auto.
        split; auto. split; auto. split; [reflexivity|apply leads_self].
    - intros c Hc. destruct (i_stack _ _ I c Hc) as (i & k & K1 & K2 & K3). exists i, k.
      rewrite Ra by (apply in_or_app; left; eapply nth_error_In; eauto).
      rewrite nth_error_app1 by (apply nth_error_Some; congruence). auto.
    - apply I.
  Qed.

  (** A node among the active ones gets a lower root. *)
  Lemma inv_lower : forall act s v i k t, inv act s -> nth_error act i = Some v ->
    ~ In v (ta_stack s) -> (k <= i)%nat -> nth_error act k = Some t -> leads v t ->
    exists s', set_root s v (Some (Z.of_nat (S k))) = Ok s' /\ inv act s' /\
      R s' v = Some (Z.of_nat (S k)) /\ (forall d, In d board -> d <> v -> R s' d = R s d) /\
      ta_stack s' = ta_stack s /\ ta_sccs s' = ta_sccs s.
  Proof using Hix Hinj dec.
    clear - Hix Hinj dec. intros act s v i k t I Hi Hns Hk Ht HL.
    assert (Ha : In v act) by (eapply nth_error_In; eauto).
    assert (Hv : In v board) by (apply (i_in _ _ I); apply in_or_app; auto).
    destruct (set_ok s v (Some (Z.of_nat (S k))) (i_len _ _ I) Hv)
      as (s' & E1 & E2 & E3 & E4 & E5 & E6 & E7 & E8).
    exists s'. split; [exact E1|]. split; [|auto 6].
    assert (Hin : forall d, In d (act ++ done s) -> In d board) by apply I.
    constructor; rewrite ?E4, ?E5, ?E6, ?E7; try apply I; auto.
    - intros c Hc Hd. rewrite E3; auto; [apply I; auto|]. intros ->. apply Hd. apply in_or_app. auto.
    - intros c Hc. rewrite E3; [apply I; auto| |].
      + apply Hin. apply in_or_app. auto.
      + intros ->. apply (NoDup_disjoint _ _ _ (i_nd _ _ I) v); auto.
    - intros j c Hj. destruct (dec c v) as [->|Hn].
      + exists k, t. rewrite E2. rewrite (nth_error_inj _ act i j v) in Hk; auto.
        eapply nodup_left. apply (i_nd _ _ I).
      + destruct (i_act _ _ I j c Hj) as (k' & t' & K1 & K2 & K3 & K4). exists k', t'.
        rewrite E3; auto. apply Hin. apply in_or_app. left. eapply nth_error_In; eauto.
    - intros c Hc. destruct (i_stack _ _ I c Hc) as (j & k' & K1 & K2 & K3). exists j, k'.
      rewrite E3; auto.
      + apply Hin. apply in_or_app. left. eapply nth_error_In; eauto.
      + intros ->. contradiction.
  Qed.

  (** Between the call for [w] and the comparison. *)
  Definition mid (v : C) (act : list C) (st : Tarjan (C := C)) (pre : list C) (w : C)
    (root : bool) (s : Tarjan (C := C)) : Prop :=
    exists ext se new k kk,
      inv (act ++ v :: ext) s /\ ta_stack s = se ++ ta_stack st /\ Permutation se ext /\
      ta_sccs s = ta_sccs st ++ new /\
      (forall c, In c act -> R s c = R st c) /\
      (forall c, In c ext -> leads v c) /\
      (forall c d, In c ext -> In d (raw c) -> In d ((act ++ v :: ext) ++ done s)) /\
      R s v = Some (Z.of_nat (S k)) /\ (k <= length act)%nat /\
      (root = true <-> k = length act) /\
      ((In w (done s) /\ kk = k) \/
       exists kw, R s w = Some (Z.of_nat (S kw)) /\ In w (act ++ v :: ext) /\ kk = Nat.min k kw) /\
      (forall x kx, In x ext -> R s x = Some (Z.of_nat (S kx)) -> (kk <= kx)%nat) /\
      (forall x d j, In x ext -> In d (raw x) -> nth_error (act ++ v :: ext) j = Some d -> (kk <= j)%nat) /\
      (forall d, In d (pre ++ [w]) -> In d ((act ++ v :: ext) ++ done s)) /\
      (forall d j, In d (pre ++ [w]) -> nth_error (act ++ v :: ext) j = Some d -> (kk <= j)%nat).

  Lemma mid_known : forall v act st pre w root s, within v act st pre root s ->
    In w board -> R s w <> None -> mid v act st pre w root s.
  Proof using dec.
    clear - dec. intros v act st pre w root s (ext & se & new & k & I & H1 & H2 & H3 & H4 & H5 & H6 & H7 & H8 & H9 & HA & HB & HC & HD) Hw HR.
    assert (Hin : In w ((act ++ v :: ext) ++ done s)).
    { destruct (in_dec dec w ((act ++ v :: ext) ++ done s)) as [Hi|Hi]; auto.
      exfalso. apply HR. apply (i_none _ _ I); auto. }
    apply in_app_or in Hin. destruct Hin as [Hin|Hin].
    - destruct (In_nth_error _ _ Hin) as (i & Hi).
      destruct (i_act _ _ I i w Hi) as (kw & t & K1 & K2 & K3 & K4).
      exists ext, se, new, k, (Nat.min k kw).
      repeat (split; [solve [auto]|]). split; [right; eauto|].
      split; [intros x kx X1 X2; specialize (HA x kx X1 X2); lia|].
      split; [intros x d j X1 X2 X3; specialize (HB x d j X1 X2 X3); lia|].
      split.
      + intros d Hd. apply in_app_or in Hd. destruct Hd as [Hd|[<-|[]]]; auto. apply in_or_app; auto.
      + intros d j Hd Hj. apply in_app_or in Hd. destruct Hd as [Hd|[<-|[]]].
        * specialize (HD d j Hd Hj). lia.
        * assert (i = j) by (eapply nth_error_inj; eauto; eapply nodup_left; apply (i_nd _ _ I)).
          lia.
    - exists ext, se, new, k, k. repeat (split; [solve [auto]|]). split.
      + intros d Hd. apply in_app_or in Hd. destruct Hd as [Hd|[<-|[]]]; auto. apply in_or_app; auto.
      + intros d j Hd Hj. apply in_app_or in Hd. destruct Hd as [Hd|[<-|[]]].
        * eapply HD; eauto.
        * exfalso. apply nth_error_In in Hj. apply (NoDup_disjoint _ _ _ (i_nd _ _ I) w); auto.
  Qed.

  Lemma mid_new : forall v act st pre w root s s', within v act st pre root s ->
    In v board -> In w board -> In w (raw v) ->
    (forall ext, inv (act ++ v :: ext) s -> after w (act ++ v :: ext) s s') ->
    mid v act st pre w root s'.
  Proof using Hnb.
    clear - Hnb. intros v act st pre w root s s' (ext & se & new & k & I & H1 & H2 & H3 & H4 & H5 & H6 & H7 & H8 & H9 & HA & HB & HC & HD) Hv Hw Hvw HAF.
    destruct (HAF ext I) as (ext' & se' & new' & I' & A1 & A2 & A3 & A4 & A5 & A6 & A7 & A8).
    assert (EQ : act ++ v :: ext ++ ext' = (act ++ v :: ext) ++ ext')
      by (rewrite <- app_assoc; reflexivity).
    assert (KEEP : forall d, In d ((act ++ v :: ext) ++ done s) ->
      In d ((act ++ v :: ext ++ ext') ++ done s')).
    { intros d Hd. rewrite EQ, A3, concat_app. rewrite !in_app_iff in *. tauto. }
    assert (POS : forall d j, In d ((act ++ v :: ext) ++ done s) ->
      nth_error (act ++ v :: ext ++ ext') j = Some d -> nth_error (act ++ v :: ext) j = Some d).
    { intros d j Hd Hj. pose proof (i_nd _ _ I') as ND. rewrite EQ in Hj. apply in_app_or in Hd.
      destruct Hd as [Hd|Hd].
      - destruct (In_nth_error _ _ Hd) as (i & Hi).
        assert (Hi' : nth_error ((act ++ v :: ext) ++ ext') i = Some d)
          by (rewrite nth_error_app1; auto; apply nth_error_Some; congruence).
        rewrite (nth_error_inj _ _ j i d (nodup_left _ _ _ ND) Hj Hi'). auto.
      - exfalso. apply (NoDup_disjoint _ _ _ ND d); [eapply nth_error_In; eauto|].
        rewrite A3, concat_app. apply in_or_app. auto. }
    assert (VIN : In v (act ++ v :: ext)) by (apply in_or_app; right; left; auto).
    assert (XIN : forall x, In x ext -> In x (act ++ v :: ext))
      by (intros x Hx; apply in_or_app; right; right; auto).
    assert (VW : leads v w) by (apply (leads_more v v w (leads_self v)); auto).
    assert (PERM : Permutation (se' ++ se) (ext ++ ext')).
    { rewrite Permutation_app_comm. apply Permutation_app; auto. }
    destruct A8 as [->|(kw & W1 & W2 & W3 & W4 & W5)].
    - exists ext, (se' ++ se), (new ++ new'), k, k. rewrite app_nil_r in *.
      split; [exact I'|]. split; [rewrite A1, H1, app_assoc; auto|]. split; [auto|].
      split; [rewrite A3, H3, app_assoc; auto|].
      split; [intros c Hc; rewrite A4; auto; apply in_or_app; auto|].
      split; [auto|]. split; [intros c d Hc Hd; apply KEEP; eauto|].
      split; [rewrite A4; auto|]. split; [auto|]. split; [auto|].
      split; [left; split; auto|].
      split; [intros x kx X1 X2; rewrite A4 in X2 by auto; eauto|].
      split; [intros x d j X1 X2 X3; eauto|].
      split; [intros d Hd | intros d j Hd Hj].
      + apply in_app_or in Hd. destruct Hd as [Hd|[<-|[]]]; [apply KEEP; auto|].
        apply in_or_app. right. exact A5.
      + apply in_app_or in Hd. destruct Hd as [Hd|[<-|[]]]; [eapply HD; eauto|].
        exfalso. apply (NoDup_disjoint _ _ _ (i_nd _ _ I') w); auto. eapply nth_error_In; eauto.
    - exists (ext ++ ext'), (se' ++ se), (new ++ new'), k, (Nat.min k kw).
      split; [rewrite EQ; exact I'|]. split; [rewrite A1, H1, app_assoc; auto|]. split; [auto|].
      split; [rewrite A3, H3, app_assoc; auto|].
      split; [intros c Hc; rewrite A4; auto; apply in_or_app; auto|].
      split; [intros c Hc; apply in_app_or in Hc; destruct Hc as [Hc|Hc]; auto; eapply leads_tr; eauto|].
      split; [intros c d Hc Hd; apply in_app_or in Hc; destruct Hc as [Hc|Hc];
        [apply KEEP; eauto | rewrite EQ; eauto]|].
      split; [rewrite A4; auto|]. split; [auto|]. split; [auto|].
      split; [right; exists kw; split; auto; split; auto; rewrite EQ; apply in_or_app; auto|].
      split; [intros x kx X1 X2; apply in_app_or in X1; destruct X1 as [X1|X1];
        [rewrite A4 in X2 by auto; specialize (HA x kx X1 X2); lia | specialize (W4 x kx X1 X2); lia]|].
      split; [intros x d j X1 X2 X3; apply in_app_or in X1; destruct X1 as [X1|X1];
        [apply POS in X3; [|eauto]; specialize (HB x d j X1 X2 X3); lia
        |rewrite EQ in X3; specialize (W5 x d j X1 X2 X3); lia]|].
      split; [intros d Hd | intros d j Hd Hj].
      + apply in_app_or in Hd. destruct Hd as [Hd|[<-|[]]]; [apply KEEP; auto|].
        rewrite EQ. rewrite !in_app_iff. auto.
      + apply in_app_or in Hd. destruct Hd as [Hd|[<-|[]]].
        * apply POS in Hj; [|auto]. specialize (HD d j Hd Hj). lia.
        * rewrite EQ in Hj. destruct (i_act _ _ I' j w Hj) as (k2 & t & K1 & K2 & _).
          rewrite W3 in K2. injection K2 as K2. lia.
  Qed.

  (** The comparison. *)
  Lemma compare_ok : forall v act st pre w root s, mid v act st pre w root s ->
    inv act st -> In v board -> In w board -> In w (raw v) -> ~ In v (act ++ done st) ->
    exists root' s',
      (let! x := root_of s w in
       let! y := root_of s v in
       if root_ltb x y then let! st := set_root s v x in Ok (false, st) else Ok (root, s))
      = Ok (root', s') /\ within v act st (pre ++ [w]) root' s'.
  Proof using Hix Hinj Hnb Hlen dec.
    clear - Hix Hinj Hnb Hlen dec. intros v act st pre w root s (ext & se & new & k & kk & I & H1 & H2 & H3 & H4 & H5 & H6 & H7 & H8 & H9 & HK & HA & HB & HC & HD) I0 Hv Hw Hvw Hnv.
    rewrite !root_ok by (auto; apply I). cbn [bind]. rewrite H7.
    pose proof (count_big _ _ I) as B. pose proof (inv_size _ _ I) as SZ.
    rewrite app_length in SZ, B. cbn [length] in SZ, B.
    assert (SAME : kk = k -> exists root' s', Ok (root, s) = Ok (root', s') /\
      within v act st (pre ++ [w]) root' s').
    { intros ->. exists root, s. split; auto. exists ext, se, new, k. auto 20. }
    destruct HK as [[HK ->]|(kw & K1 & K2 & ->)].
    - destruct (i_done _ _ I w HK) as (z & Z1 & Z2). rewrite Z1. cbn [root_ltb].
      replace (z <? Z.of_nat (S k)) with false by lia. auto.
    - rewrite K1. cbn [root_ltb]. destruct (Z.of_nat (S kw) <? Z.of_nat (S k)) eqn:EL.
      2: apply SAME; lia.
      assert (Hk : Nat.min k kw = kw) by lia. rewrite Hk in *. clear SAME.
      destruct (In_nth_error _ _ K2) as (i & Hi).
      destruct (i_act _ _ I i w Hi) as (k2 & t & T1 & T2 & T3 & T4).
      assert (k2 = kw) by (rewrite K1 in T2; injection T2; lia). subst k2.
      assert (VP : nth_error (act ++ v :: ext) (length act) = Some v)
        by (rewrite nth_error_app2, Nat.sub_diag by auto; reflexivity).
      assert (VS : ~ In v (ta_stack s)).
      { rewrite H1. intros X. apply in_app_or in X. destruct X as [X|X].
        - pose proof (i_nd _ _ I) as ND. apply nodup_left in ND. apply NoDup_remove_2 in ND.
          apply ND. apply in_or_app. right. eapply Permutation_in; eauto.
        - destruct (i_stack _ _ I0 v X) as (j & _ & Hj & _). apply Hnv. apply in_or_app. left.
          eapply nth_error_In; eauto. }
      destruct (inv_lower _ _ _ (length act) kw t I VP VS) as (s' & E1 & E2 & E3 & E4 & E5 & E6); auto.
      { lia. }
      { eapply leads_tr; [|exact T4]. apply (leads_more v v w (leads_self v)); auto. }
      rewrite E1. cbn [bind]. exists false, s'. split; auto.
      pose proof (i_nd _ _ I) as ND. apply nodup_left in ND. apply NoDup_remove_2 in ND.
      assert (BI : forall x, In x (act ++ ext) -> In x board /\ x <> v).
      { intros x Hx. split; [|intros ->; contradiction]. apply (i_in _ _ I). apply in_or_app. left.
        apply in_app_or in Hx. apply in_or_app. destruct Hx; auto. right. right. auto. }
      exists ext, se, new, kw. rewrite E5, E6.
      repeat (split; [solve [auto]|]).
      split; [intros c Hc; rewrite E4; auto; apply BI; apply in_or_app; auto|].
      repeat (split; [solve [auto]|]).
      split; [lia|]. split; [split; intros; [discriminate|lia]|].
      split; [|auto].
      intros x kx X1 X2. rewrite E4 in X2 by (apply BI; apply in_or_app; auto). eauto.
  Qed.

  (** The end of the visit: [v] goes onto the stack. *)
  Lemma push_ok : forall v act st s, within v act st (raw v) false s ->
    after v act st
      (mkTarjan (ta_index s) (ta_count s) (ta_nodes s) (v :: ta_stack s) (ta_sccs s)).
  Proof using.
    clear. intros v act st s (ext & se & new & k & I & H1 & H2 & H3 & H4 & H5 & H6 & H7 & H8 & H9 & HA & HB & HC & HD).
    assert (Hk : (k < length act)%nat) by (assert (k <> length act) by (intros X; apply H9 in X; discriminate); lia).
    exists (v :: ext), (v :: se), new. cbn [ta_stack ta_sccs].
    change (R (mkTarjan (ta_index s) (ta_count s) (ta_nodes s) (v :: ta_stack s) (ta_sccs s)))
      with (R s).
    split.
    - constructor; cbn [ta_index ta_count ta_nodes ta_stack ta_sccs]; try apply I.
      change (R (mkTarjan (ta_index s) (ta_count s) (ta_nodes s) (v :: ta_stack s) (ta_sccs s)))
        with (R s).
      intros c [<-|Hc]; [|apply I; auto]. exists (length act), k.
      rewrite nth_error_app2, Nat.sub_diag by auto. auto.
    - split; [rewrite H1; reflexivity|]. split; [constructor; auto|]. split; [auto|]. split; [auto|].
      split; [left; auto|]. split; [intros c [<-|Hc]; [apply leads_self|auto]|].
      split; [intros c d [<-|Hc] Hd; eauto|].
      right. exists k. split; [left; auto|]. split; [auto|]. split; [auto|].
      split.
      + intros x kx [<-|Hx] E; [|eauto]. rewrite H7 in E. injection E as E. lia.
      + intros x d j [<-|Hx] Hd Hj; eauto.
  Qed.

  (** Or it is the root of a component. *)
  Lemma found_ok : forall v act st s, within v act st (raw v) true s -> inv act st ->
    In v board -> ~ In v (act ++ done st) ->
    exists st', 
      (let c := non_zero (ta_count s) in
       let! r := pop v c (ta_stack s) [] 1 s in
       let '(adj, popped, rest, st) := r in
       let! st := set_root st v c in
       let! i := usize_sub m (ta_index st) adj in
       let! n := usize_sub m (ta_count st) 1 in
       Ok (mkTarjan i n (ta_nodes st) rest (ta_sccs st ++ [popped ++ [v]]))) = Ok st' /\
      after v act st st'.
  Proof using Hix Hinj Hnb Hlen.
    clear - Hix Hinj Hnb Hlen. intros v act st s (ext & se & new & k & I & H1 & H2 & H3 & H4 & H5 & H6 & H7 & H8 & H9 & HA & HB & HC & HD) I0 Hv Hnv.
    assert (k = length act) by (apply H9; auto). subst k. clear H8 H9.
    pose proof (count_big _ _ I) as B. pose proof (inv_size _ _ I) as SZ.
    rewrite app_length in SZ, B. cbn [length] in SZ, B.
    assert (LSE : length se = length ext) by (apply Permutation_length; auto).
    pose proof (i_nd _ _ I) as ND.
    assert (PM : Permutation ((act ++ v :: ext) ++ done s) (act ++ done s ++ (rev se ++ []) ++ [v])).
    { rewrite <- app_assoc. apply Permutation_app_head. rewrite app_nil_r.
      rewrite (Permutation_app_comm (v :: ext)). apply Permutation_app_head.
      rewrite <- Permutation_cons_append. constructor. rewrite <- Permutation_rev. symmetry. auto. }
    assert (SEX : forall x, In x se <-> In x ext)
      by (intros x; split; apply Permutation_in; [auto | symmetry; auto]).
    assert (BI : forall x, In x ((act ++ v :: ext) ++ done s) -> In x board) by apply I.
    assert (ST0 : forall x, In x (ta_stack st) -> In x act).
    { intros x Hx. destruct (i_stack _ _ I0 x Hx) as (i & _ & Hi & _). eapply nth_error_In; eauto. }
    assert (NDE : NoDup (act ++ v :: ext)) by (eapply nodup_left; eauto).
    assert (NV : ~ In v (act ++ ext)) by (apply NoDup_remove_2; auto).
    assert (DJ : forall x, In x act -> In x ext -> False).
    { intros x X1 X2. apply (NoDup_disjoint _ _ _ NDE x); auto. right; auto. }
    assert (RACT : forall i c, nth_error (act ++ v :: ext) i = Some c -> (length act <= i)%nat ->
      exists kc t, (length act <= kc <= i)%nat /\ R s c = Some (Z.of_nat (S kc)) /\
        nth_error (act ++ v :: ext) kc = Some t /\ leads c t /\ (i = length act \/ (kc < i)%nat)).
    { intros i c Hi Li. destruct (i_act _ _ I i c Hi) as (kc & t & K1 & K2 & K3 & K4).
      exists kc, t. destruct (Nat.eq_dec i (length act)) as [->|Ni].
      - rewrite nth_error_app2, Nat.sub_diag in Hi by auto. cbn in Hi. injection Hi as <-.
        rewrite H7 in K2. injection K2 as K2. split; [lia|]. rewrite H7. split; [f_equal; lia|]. auto.
      - assert (He : In c ext).
        { rewrite nth_error_app2 in Hi by lia. destruct (i - length act)%nat eqn:E; [lia|].
          cbn in Hi. eapply nth_error_In; eauto. }
        assert (Hs : In c (ta_stack s)) by (rewrite H1; apply in_or_app; left; apply SEX; auto).
        destruct (i_stack _ _ I c Hs) as (i2 & k2 & J1 & J2 & J3).
        rewrite (nth_error_inj _ _ i2 i c NDE J1 Hi) in *. rewrite K2 in J3. injection J3 as J3.
        pose proof (HA c kc He K2). split; [lia|]. repeat (split; [solve [auto]|]). right. lia. }
    assert (BACK : forall n i c, (i <= n)%nat -> nth_error (act ++ v :: ext) i = Some c ->
      (length act <= i)%nat -> leads c v).
    { induction n as [|n IH]; intros i c Hin Hi Li;
        destruct (RACT i c Hi Li) as (kc & t & K1 & K2 & K3 & K4 & [K5|K5]).
      - subst i. rewrite nth_error_app2, Nat.sub_diag in Hi by auto. cbn in Hi. injection Hi as <-.
        apply leads_self.
      - lia.
      - subst i. rewrite nth_error_app2, Nat.sub_diag in Hi by auto. cbn in Hi. injection Hi as <-.
        apply leads_self.
      - eapply leads_tr; [exact K4|]. apply (IH kc); auto; lia. }
    assert (TOV : forall c, In c (v :: ext) -> leads c v).
    { intros c Hc. apply In_nth_error in Hc. destruct Hc as (i & Hi).
      apply (BACK (length act + i)%nat (length act + i)%nat c); auto; [|lia].
      rewrite nth_error_app2 by lia. replace (length act + i - length act)%nat with i by lia. auto. }
    assert (FROMV : forall c, In c (v :: ext) -> leads v c)
      by (intros c [<-|Hc]; [apply leads_self|auto]).
    assert (SUCC : forall a b, In a (v :: ext) -> In b (raw a) -> In b (done s ++ v :: ext)).
    { intros a b Ha Hb.
      assert (Hin : In b ((act ++ v :: ext) ++ done s)) by (destruct Ha as [<-|Ha]; eauto).
      apply in_app_or in Hin. apply in_or_app. destruct Hin as [Hin|Hin]; [|auto].
      destruct (In_nth_error _ _ Hin) as (j & Hj).
      assert (Lj : (length act <= j)%nat) by (destruct Ha as [<-|Ha]; eauto).
      right. rewrite nth_error_app2 in Hj by auto. eapply nth_error_In; eauto. }
    assert (CL : forall c x, In c (done s ++ v :: ext) -> In x (raw c) -> In x board ->
      In x (done s ++ v :: ext)).
    { intros c x Hc Hx _. apply in_app_or in Hc. destruct Hc as [Hc|Hc]; [|eauto].
      apply in_or_app. left. apply (good_closed _ (i_good _ _ I) c); auto. }
    assert (CD : forall c x, In c (done s) -> In x (raw c) -> In x board -> In x (done s)).
    { intros c x Hc Hx _. apply (good_closed _ (i_good _ _ I) c); auto. }
    assert (NDD : forall x, In x (v :: ext) -> In x (done s) -> False).
    { intros x X1 X2. apply (NoDup_disjoint _ _ _ ND x); auto. apply in_or_app. auto. }
    (* the run *)
    destruct (pop_ok v (length act) (non_zero (ta_count s)) se (ta_stack st) [] 1 s)
      as (s1 & P1 & P2 & P3 & P4 & P5 & P6 & P7); auto; try lia.
    { apply I. }
    { intros x Hx. apply BI. apply in_app_or in Hx. rewrite !in_app_iff. cbn [In].
      destruct Hx as [Hx|Hx]; [apply SEX in Hx|apply ST0 in Hx]; auto. }
    { eapply Permutation_NoDup; [symmetry; exact H2|]. apply (nodup_left _ ext act).
      eapply Permutation_NoDup; [apply Permutation_app_comm|].
      apply NoDup_remove_1 with (a := v). auto. }
    { intros x X1 X2. apply SEX in X1. apply ST0 in X2. eauto. }
    { intros X. apply NV. apply in_app_or in X. apply in_or_app.
      destruct X as [X|X]; [apply SEX in X|apply ST0 in X]; auto. }
    { intros x Hx. apply SEX in Hx.
      destruct (In_nth_error _ _ Hx) as (i & Hi).
      destruct (RACT (length act + S i)%nat x) as (kc & t & K1 & K2 & _).
      - rewrite nth_error_app2 by lia. replace (length act + S i - length act)%nat with (S i) by lia. auto.
      - lia.
      - exists kc. split; auto. lia. }
    { intros x Hx. destruct (i_stack _ _ I0 x Hx) as (i & kx & J1 & J2 & J3). exists kx.
      rewrite H4 by (eapply nth_error_In; eauto). split; auto.
      assert (i < length act)%nat by (apply nth_error_Some; congruence). lia. }
    cbn zeta. rewrite H1, P1. cbn [bind].
    destruct (set_ok s1 v (non_zero (ta_count s)) P7 Hv) as (s2 & E1 & E2 & E3 & E4 & E5 & E6 & E7 & E8).
    rewrite E1. cbn [bind]. rewrite E4, E5, P4, P5, E7, P6.
    rewrite (i_idx _ _ I) in *. rewrite app_length in *. cbn [length] in *.
    rewrite usize_sub_ok by lia. cbn [bind]. rewrite usize_sub_ok by lia. cbn [bind].
    set (comp := (rev se ++ []) ++ [v]) in *.
    set (st' := mkTarjan _ _ _ _ _). exists st'. split; [reflexivity|].
    assert (INC : forall x, In x comp <-> In x (v :: ext)).
    { intros x. unfold comp. rewrite app_nil_r, in_app_iff, <- in_rev, SEX. cbn [In]. tauto. }
    assert (NZ : non_zero (ta_count s) = Some (ta_count s)).
    { unfold non_zero. replace (ta_count s =? 0) with false by lia. reflexivity. }
    assert (RC : forall x, In x comp -> R st' x = Some (ta_count s)).
    { intros x Hx. rewrite <- NZ. apply INC in Hx. change (R st' x) with (R s2 x).
      destruct Hx as [<-|Hx]; [exact E2|].
      rewrite E3; [apply P2, SEX; auto| |].
      - apply BI. rewrite !in_app_iff. cbn [In]. auto.
      - intros ->. apply NV. apply in_or_app. auto. }
    assert (RO : forall x, In x board -> ~ In x comp -> R st' x = R s x).
    { intros x Hx Hn. change (R st' x) with (R s2 x). rewrite E3; [apply P3; auto| |]; auto.
      - intros X. apply Hn. apply INC. right. apply SEX. auto.
      - intros ->. apply Hn. apply INC. left. auto. }
    assert (RA : forall x, In x act -> R st' x = R st x).
    { intros x Hx. rewrite RO; auto.
      - apply BI. rewrite !in_app_iff. auto.
      - intros X. apply INC in X. apply (NoDup_disjoint _ _ _ NDE x); auto. }
    assert (DN : concat (ta_sccs s ++ [comp]) = done s ++ comp)
      by (rewrite concat_app; cbn [concat]; rewrite app_nil_r; reflexivity).
    exists [], [], (new ++ [comp]). rewrite app_nil_r. cbn [st' ta_stack ta_sccs].
    split; [|split; [reflexivity|split; [constructor|split; [rewrite H3, app_assoc; reflexivity|]]]].
    2: { split; [auto|]. split; [cbn [app]; rewrite DN; apply in_or_app; right; apply INC; left; auto|].
         split; [intros c []|]. split; [intros c d []|auto]. }
    constructor; cbn [st' ta_index ta_count ta_nodes ta_stack ta_sccs]; rewrite ?DN.
    - exact E8.
    - eapply Permutation_NoDup; [exact PM|auto].
    - intros x Hx. apply BI. eapply Permutation_in; [symmetry; exact PM|auto].
    - lia.
    - rewrite (i_cnt _ _ I), app_length. cbn [length]. lia.
    - pose proof (i_few _ _ I). rewrite !app_length. unfold comp. rewrite app_length. cbn [length]. lia.
    - intros c Hc Hn. fold st'. rewrite RO; auto.
      + apply (i_none _ _ I); auto. intros X. apply Hn. eapply Permutation_in; [exact PM|auto].
      + intros X. apply Hn. rewrite !in_app_iff. auto.
    - intros c Hc. fold st'. apply in_app_or in Hc. destruct Hc as [Hc|Hc].
      + destruct (i_done _ _ I c Hc) as (z & Z1 & Z2). exists z. rewrite RO.
        * split; auto. lia.
        * apply BI. apply in_or_app. auto.
        * intros X. apply INC in X. eauto.
      + exists (ta_count s). split; [auto|lia].
    - intros i c Hi. fold st'. destruct (i_act _ _ I0 i c Hi) as (k & t & K). exists k, t.
      rewrite RA by (eapply nth_error_In; eauto). auto.
    - intros c Hc. fold st'. destruct (i_stack _ _ I0 c Hc) as (i & k & K1 & K). exists i, k.
      rewrite RA by (eapply nth_error_In; eauto). auto.
    - intros l1 l l2 El. destruct (list_rev_case _ l2) as [->|(l2' & y & ->)].
      + apply app_inj_tail in El. destruct El as [<- <-]. split; [|split].
        * intros X. assert (Y : In v comp) by (apply INC; left; auto). rewrite X in Y. destruct Y.
        * intros a Ha b. apply INC in Ha. rewrite INC. split.
          -- intros Hb. split; eapply leads_tr; eauto.
          -- intros [L1 L2].
             assert (Hb : In b (done s ++ v :: ext)).
             { apply (leads_closed _ CL) with (a := a); auto.
               - intros x Hx. apply BI. apply in_app_or in Hx. apply in_or_app. destruct Hx; auto.
                 left. apply in_or_app. auto.
               - apply in_or_app. auto. }
             apply in_app_or in Hb. destruct Hb as [Hb|Hb]; auto. exfalso. apply (NDD a Ha).
             apply (leads_closed _ CD) with (a := b); auto.
             intros x Hx. apply BI. apply in_or_app. auto.
        * intros a b Ha Hb. apply INC in Ha. pose proof (SUCC a b Ha Hb) as X.
          apply in_app_or in X. apply in_or_app. destruct X; auto. right. apply INC. auto.
      + rewrite app_comm_cons, app_assoc in El. apply app_inj_tail in El. destruct El as [El _].
        apply (i_good _ _ I l1 l l2' El).
  Qed.

  Lemma loop_ok : forall vis v act st, inv act st -> In v board -> ~ In v (act ++ done st) ->
    (forall w act' s, inv act' s -> In w board -> ~ In w (act' ++ done s) ->
       (length (act ++ done st) < length (act' ++ done s))%nat ->
       (vis w s = Fail FPanic /\ stray) \/ exists s', vis w s = Ok s' /\ after w act' s s') ->
    forall post pre root s, raw v = pre ++ post -> within v act st pre root s ->
    (fold_outcome (tarjan_neighbour to_index vis v) post (root, s) = Fail FPanic /\ stray) \/
    exists root' s', fold_outcome (tarjan_neighbour to_index vis v) post (root, s) = Ok (root', s') /\
      within v act st (raw v) root' s'.
  Proof using Hix Hinj Hnb Hlen Hoff dec.
    clear - Hix Hinj Hnb Hlen Hoff dec. intros vis v act st I0 Hv Hnv HV.
    induction post as [|w post IH]; intros pre root s Er HW.
    - right. exists root, s. split; [reflexivity|]. rewrite Er, app_nil_r. auto.
    - assert (Hw : In w (raw v)) by (rewrite Er; apply in_or_app; right; left; auto).
      cbn [fold_outcome]. destruct (in_dec dec w board) as [Hb|Hb].
      2: { left. split; [|exists v, w; auto]. unfold tarjan_neighbour, Tarjan.root_of.
           rewrite (Hoff v w Hv Hw Hb). reflexivity. }
      assert (NEXT : forall s1, mid v act st pre w root s1 ->
        tarjan_neighbour to_index vis v (root, s) w =
          (let! x := root_of s1 w in
           let! y := root_of s1 v in
           if root_ltb x y then let! st := set_root s1 v x in Ok (false, st) else Ok (root, s1)) ->
        (let! s' := tarjan_neighbour to_index vis v (root, s) w in
         fold_outcome (tarjan_neighbour to_index vis v) post s') = Fail FPanic /\ stray \/
        exists root' s', (let! s' := tarjan_neighbour to_index vis v (root, s) w in
         fold_outcome (tarjan_neighbour to_index vis v) post s') = Ok (root', s') /\
          within v act st (raw v) root' s').
      { intros s1 HM E.
        destruct (compare_ok v act st pre w root s1 HM I0 Hv Hb Hw Hnv) as (r2 & s2 & E2 & W2).
        rewrite E, E2. cbn [bind]. apply (IH (pre ++ [w])); [|exact W2].
        rewrite Er, <- app_assoc. reflexivity. }
      pose proof HW as (ext & se & new & k & I & _ & _ & ES & _).
      assert (TN : tarjan_neighbour to_index vis v (root, s) w =
        (let! s1 := match R s w with Some _ => Ok s | None => vis w s end in
         let! x := root_of s1 w in
         let! y := root_of s1 v in
         if root_ltb x y then let! st := set_root s1 v x in Ok (false, st) else Ok (root, s1))).
      { unfold tarjan_neighbour. rewrite (root_ok s w) by (auto; apply I). reflexivity. }
      destruct (R s w) as [z|] eqn:ER.
      + apply (NEXT s); [|exact TN]. apply mid_known; auto. congruence.
      + assert (Hn : forall ext', inv (act ++ v :: ext') s -> ~ In w ((act ++ v :: ext') ++ done s)).
        { intros ext' I' X. apply in_app_or in X. destruct X as [X|X].
          - destruct (In_nth_error _ _ X) as (i & Hi). destruct (i_act _ _ I' i w Hi) as (? & ? & ? & K & _).
            congruence.
          - destruct (i_done _ _ I' w X) as (? & K & _). congruence. }
        assert (HS : forall ext', (length (act ++ done st) < length ((act ++ v :: ext') ++ done s))%nat).
        { intros ext'. rewrite ES, concat_app, !app_length. cbn [length]. lia. }
        assert (ONE : (vis w s = Fail FPanic /\ stray) \/ exists s', vis w s = Ok s' /\
           forall ext', inv (act ++ v :: ext') s -> after w (act ++ v :: ext') s s').
        { destruct (HV w _ s I Hb (Hn ext I) (HS ext)) as [X|(s' & X1 & X2)]; [auto|]. right.
          exists s'. split; auto. intros ext' I'.
          destruct (HV w _ s I' Hb (Hn ext' I') (HS ext')) as [[X3 _]|(s2 & X3 & X4)]; [congruence|].
          rewrite X1 in X3. injection X3 as <-. auto. }
        destruct ONE as [[X1 X2]|(s' & X1 & X2)].
        * left. rewrite TN, X1. auto.
        * apply (NEXT s'); [|rewrite TN, X1; reflexivity].
          apply (mid_new v act st pre w root s s'); auto.
  Qed.

  Lemma visit_ok : forall fuel v act st, inv act st -> In v board -> ~ In v (act ++ done st) ->
    (length board < fuel + length (act ++ done st))%nat ->
    (visit fuel v st = Fail FPanic /\ stray) \/
    exists st', visit fuel v st = Ok st' /\ after v act st st'.
  Proof using Hix Hinj Hnb Hlen Hoff Hfew dec.
    clear - Hix Hinj Hnb Hlen Hoff Hfew dec.
    induction fuel as [|fuel IH]; intros v act st I Hv Hn HF.
    { pose proof (inv_size _ _ I). rewrite app_length in HF. lia. }
    cbn [tarjan_visit]. rewrite root_ok by (auto; apply I). cbn [bind].
    rewrite (i_none _ _ I v Hv Hn).
    replace (debug_assert m true) with (Ok tt) by (destruct m; reflexivity). cbn [bind].
    destruct (enter_ok v act st I Hv Hn) as (s & E1 & E2 & W). rewrite E1. cbn [bind].
    rewrite E2. cbn [bind].
    rewrite (for_each_exact _ _ _ _ _ (raw v)); [|auto|pose proof (Hfew v Hv); lia].
    destruct (loop_ok (visit fuel) v act st I Hv Hn) with (post := raw v) (pre := @nil C)
      (root := true) (s := mkTarjan (ta_index s + 1) (ta_count s) (ta_nodes s) (ta_stack s) (ta_sccs s))
      as [[L1 L2]|(root & s1 & L1 & L2)]; auto.
    - intros w act' s' I' Hw Hn' HL. apply IH; auto. lia.
    - left. rewrite L1. auto.
    - right. rewrite L1. cbn [bind]. destruct root.
      + destruct (found_ok v act st s1 L2 I Hv Hn) as (st' & X1 & X2). eauto.
      + eexists. split; [reflexivity|]. apply push_ok. auto.
  Qed.

  (** ** The whole run *)

  Lemma start_inv : inv [] (mkTarjan 1 (USIZE - 1) (repeat None (length board)) [] []).
  Proof using.
    clear. constructor; cbn [ta_index ta_count ta_nodes ta_stack ta_sccs concat app length]; auto.
    - apply repeat_length.
    - constructor.
    - intros x [].
    - intros c _ _. unfold R. cbn [ta_nodes].
      destruct (nth_error (repeat None (length board)) (ix c)) as [x|] eqn:E; auto.
      apply nth_error_In in E. apply repeat_spec in E. auto.
    - intros c [].
    - intros [|i] c E; discriminate.
    - intros c [].
    - intros l1 l l2 E. destruct l1; discriminate.
  Qed.

  Lemma tarjan_any :
    (stray -> tarjan_scc m ids ids_next nb nb_next bound to_index = Fail FPanic) /\
    (~ stray -> exists ls, tarjan_scc m ids ids_next nb nb_next bound to_index = Ok ls /\
       Permutation (concat ls) board /\
       (forall l, In l ls -> l <> [] /\ forall a, In a l -> forall b, In b l <-> leads a b /\ leads b a) /\
       (forall l1 l l2 a b, ls = l1 ++ l :: l2 -> In a l -> leads a b -> In b (concat (l1 ++ [l])))).
  Proof using Hids Hnd Hix Hinj Hnb Hlen Hoff Hfew Hbound dec.
    assert (FOLD : forall rest pre st, board = pre ++ rest -> inv [] st -> ta_stack st = [] ->
      incl pre (done st) ->
      (fold_outcome (fun st c =>
        let! x := root_of st c in
        match x with
        | Some _ => Ok st
        | None => visit (S (length board)) c st
        end) rest st = Fail FPanic /\ stray) \/
      exists st', fold_outcome (fun st c =>
        let! x := root_of st c in
        match x with
        | Some _ => Ok st
        | None => visit (S (length board)) c st
        end) rest st = Ok st' /\ inv [] st' /\ ta_stack st' = [] /\ incl board (done st')).
    { clear Hids Hbound. induction rest as [|c rest IH]; intros pre st Eb I Es Hp.
      - right. exists st. rewrite app_nil_r in Eb. subst pre. auto.
      - assert (Hc : In c board) by (rewrite Eb; apply in_or_app; right; left; auto).
        cbn [fold_outcome]. rewrite root_ok by (auto; apply I). cbn [bind].
        assert (Eb' : board = (pre ++ [c]) ++ rest) by (rewrite Eb, <- app_assoc; reflexivity).
        destruct (in_dec dec c (done st)) as [Hd|Hd].
        + destruct (i_done _ _ I c Hd) as (z & Z1 & _). rewrite Z1. cbn [bind].
          apply (IH (pre ++ [c])); auto. intros x Hx. apply in_app_or in Hx.
          destruct Hx as [Hx|[<-|[]]]; auto.
        + rewrite (i_none _ _ I c Hc Hd).
          destruct (visit_ok (S (length board)) c [] st I Hc Hd) as [[V1 V2]|(st' & V1 & V2)].
          { lia. }
          * left. rewrite V1. auto.
          * rewrite V1. cbn [bind].
            destruct V2 as (ext & se & new & I' & A1 & A2 & A3 & A4 & A5 & A6 & A7 & A8).
            assert (ext = []) as -> by (destruct A8 as [->|(k & _ & K & _)]; [auto|cbn in K; lia]).
            apply Permutation_sym, Permutation_nil in A2. subst se. cbn [app] in *.
            apply (IH (pre ++ [c])); auto; [congruence|].
            intros x Hx. rewrite A3, concat_app in *. apply in_app_or in Hx.
            destruct Hx as [Hx|[<-|[]]]; auto. apply in_or_app. auto. }
    destruct (FOLD board [] _ eq_refl start_inv eq_refl ltac:(intros x [])) as [[F1 F2]|(st & F1 & I & F3 & F4)].
    - split; [|contradiction]. intros _. unfold tarjan_scc. rewrite Hbound. cbn [bind]. rewrite Nat2Z.id.
      rewrite (for_each_exact _ _ _ _ _ board);
        [|auto|change (2 ^ 63) with 9223372036854775808 in Hlen; change (2 ^ 72) with 4722366482869645213696; lia].
      rewrite F1. reflexivity.
    - assert (CL : forall c x, In c board -> In x (raw c) -> In x board).
      { intros c x Hc Hx. apply (i_in _ _ I). apply in_or_app. right.
        apply (good_closed _ (i_good _ _ I) c); auto. }
      split; [intros (c & x & Hc & Hx & Hn); exfalso; eauto|]. intros _.
      exists (ta_sccs st). unfold tarjan_scc. rewrite Hbound. cbn [bind]. rewrite Nat2Z.id.
      rewrite (for_each_exact _ _ _ _ _ board);
        [|auto|change (2 ^ 63) with 9223372036854775808 in Hlen; change (2 ^ 72) with 4722366482869645213696; lia].
      rewrite F1. cbn [bind]. rewrite F3.
      replace (debug_assert m true) with (Ok tt) by (destruct m; reflexivity). cbn [bind].
      split; [reflexivity|]. split; [|split].
      + apply NoDup_Permutation; [apply (i_nd _ _ I)|auto|]. intros x. split; [apply (i_in _ _ I)|apply F4].
      + intros l Hl. apply in_split in Hl. destruct Hl as (l1 & l2 & El).
        destruct (i_good _ _ I l1 l l2 El) as (G1 & G2 & _). auto.
      + intros l1 l l2 a b El Ha HL.
        assert (GP : good (l1 ++ [l])).
        { intros k1 k k2 Ek. apply (i_good _ _ I k1 k (k2 ++ l2)). rewrite El.
          change (l :: l2) with ([l] ++ l2). rewrite app_assoc, Ek, <- app_assoc. reflexivity. }
        apply (leads_closed (concat (l1 ++ [l]))) with (a := a); auto.
        * intros c x Hc Hx _. apply (good_closed _ GP c); auto.
        * intros x Hx. apply (i_in _ _ I). cbn [app]. rewrite El. change (l :: l2) with ([l] ++ l2).
          rewrite app_assoc, concat_app. apply in_or_app. auto.
        * rewrite concat_app. apply in_or_app. right. cbn [concat]. apply in_or_app. auto.
  Qed.
End Any.
