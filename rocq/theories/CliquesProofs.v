(** * CliquesProofs: [maximal_cliques] lists the maximal cliques, in whatever order sets are
    iterated. *)

From Coq Require Import Permutation Sorted.
From Verif Require Import Machine Traverse Spec11 Basics TraverseProofs AnySearch Spec25 Cliques.
From Coq Require Import ZifyBool ZifyNat.

Section Cliques.
  Context {C It NIt : Type} (eqb : C -> C -> bool) (order : list C -> list C -> list C)
    (ids : NIt) (ids_next : NIt -> outcome (option C * NIt))
    (nb : C -> It) (nb_next : C -> It -> outcome (option C * It))
    (is_adjacent : C -> C -> outcome bool)
    (nodes : list C) (nbs : C -> list C)
    (EQ : forall a b, eqb a b = true <-> a = b) (ORD : SomeOrder order)
    (ND : NoDup nodes) (IDS : Drains ids_next ids nodes)
    (SIZE : Z.of_nat (length nodes) + 1 < 2 ^ 72)
    (NB : forall c, In c nodes -> Drains (nb_next c) (nb c) (nbs c))
    (DEG : forall c, In c nodes -> Z.of_nat (length (nbs c)) + 1 < 2 ^ 72)
    (ADJ : forall a b, In a nodes -> exists r, is_adjacent a b = Ok r /\ (r = true <-> In b (nbs a)))
    (SYM : forall a b, In a nodes -> In b nodes -> In b (nbs a) -> In a (nbs b)).

  Notation J := (fun a b => In b (nbs a)).
  Notation degree := (degree nb nb_next).
  Notation around_set := (around_set nb nb_next).
  Notation pivot := (pivot nb nb_next).
  Notation not_joined := (not_joined eqb is_adjacent).
  Notation select := (select eqb is_adjacent).
  Notation bk := (bron_kerbosch eqb order nb nb_next is_adjacent).

  Lemma dec : forall a b : C, {a = b} + {a <> b}.
  Proof.
    intros a b. destruct (eqb a b) eqn:E; [left; apply EQ; exact E|].
    right. intros H. apply EQ in H. congruence.
  Defined.

  Lemma fold_total : forall S X (f : S -> X -> S) l s,
    fold_outcome (fun s x => Ok (f s x)) l s = Ok (fold_left f l s).
  Proof. intros S X f. induction l as [|x l IH]; intros s; cbn; auto. Qed.

  Lemma degree_ok : forall c, In c nodes -> exists k, degree c = Ok k.
  Proof.
    intros c Hc. unfold Cliques.degree. rewrite (for_each_exact _ _ _ _ _ _ _ _ (NB c Hc) (DEG c Hc)).
    rewrite (fold_total _ _ (fun n _ => n + 1)). eauto.
  Qed.

  Lemma around_ok : forall c, In c nodes -> exists l, around_set c = Ok l /\
    forall y, mem eqb l y = true <-> In y (nbs c).
  Proof.
    intros c Hc. unfold Cliques.around_set.
    rewrite (for_each_exact _ _ _ _ _ _ _ _ (NB c Hc) (DEG c Hc)).
    rewrite (fold_total _ _ (fun l y => y :: l)). eexists. split; [reflexivity|].
    intros y. unfold mem. rewrite existsb_exists.
    assert (HF : forall l acc, In y (fold_left (fun l0 y0 => y0 :: l0) l acc) <-> In y l \/ In y acc).
    { induction l as [|z l IH]; intros acc; cbn [fold_left]; [cbn; tauto|]. rewrite IH. cbn. tauto. }
    split.
    - intros (z & Hz & E). apply EQ in E. subst z. apply HF in Hz. cbn in Hz. tauto.
    - intros Hy. exists y. split; [apply HF; auto|apply EQ; auto].
  Qed.

  Lemma pivot_ok : forall l best, In best nodes -> incl l nodes ->
    exists u, pivot best l = Ok u /\ In u (best :: l).
  Proof.
    induction l as [|v l IH]; intros best Hb Hl; cbn [Cliques.pivot].
    - eexists. split; [reflexivity|left; auto].
    - destruct (degree_ok best Hb) as (a & ->). destruct (degree_ok v (Hl v (or_introl eq_refl))) as (b & ->).
      cbn [bind]. destruct (IH (if a <=? b then v else best)) as (u & E & Hu).
      + destruct (a <=? b); auto. apply Hl; left; auto.
      + intros y Hy. apply Hl; right; auto.
      + exists u. split; auto. destruct Hu as [<-|Hu]; [destruct (a <=? b)|]; cbn; auto.
  Qed.

  Lemma not_joined_ok : forall u v, In u nodes -> In v nodes ->
    exists b, not_joined u v = Ok b /\ (b = true <-> u = v \/ ~ J u v).
  Proof.
    intros u v Hu Hv. unfold Cliques.not_joined. destruct (eqb u v) eqn:E.
    - apply EQ in E. exists true. split; auto. tauto.
    - assert (u <> v) by (intros H; apply EQ in H; congruence).
      destruct (ADJ u v Hu) as (a & -> & HA). cbn [bind]. destruct a; cbn [negb].
      + destruct (ADJ v u Hv) as (b & -> & HB). cbn [bind]. exists (negb b). split; auto.
        destruct b; cbn [negb].
        * split; [discriminate|]. intros [H1|H1]; [contradiction|]. exfalso. apply H1, HA. auto.
        * split; auto. intros _. right. intros H1. assert (false = true) by (apply HB; auto). discriminate.
      + exists true. split; auto. split; auto. intros _. right. intros H1.
        assert (false = true) by (apply HA; auto). discriminate.
  Qed.

  Lemma select_ok : forall u l, In u nodes -> incl l nodes -> NoDup l ->
    exists todo, select u l = Ok todo /\ NoDup todo /\
      forall v, In v todo <-> In v l /\ (u = v \/ ~ J u v).
  Proof.
    intros u l Hu Hl HN.
    set (f := fun v => match not_joined u v with Ok b => b | Fail _ => false end).
    assert (HF : forall l acc, incl l nodes ->
      fold_outcome (fun acc v => let! b := not_joined u v in Ok (if (b : bool) then acc ++ [v] else acc))
        l acc = Ok (acc ++ filter f l)).
    { clear l Hl HN. induction l as [|v l IH]; intros acc Hl; cbn [fold_outcome filter].
      - rewrite app_nil_r. auto.
      - destruct (not_joined_ok u v Hu (Hl v (or_introl eq_refl))) as (b & E & _).
        assert (Ef : f v = b) by (unfold f; rewrite E; auto).
        rewrite E. cbn [bind]. rewrite IH by (intros y Hy; apply Hl; right; auto). rewrite Ef.
        destruct b; [|reflexivity]. rewrite <- app_assoc. reflexivity. }
    exists (filter f l). split; [unfold Cliques.select; rewrite HF; auto|].
    split; [apply NoDup_filter; auto|].
    intros v. rewrite filter_In. split; intros [H1 H2]; split; auto;
      destruct (not_joined_ok u v Hu (Hl v H1)) as (b & E & Hb); unfold f in *; rewrite E in *;
      apply Hb; auto.
  Qed.

  (** ** What a call finds *)

  Record Inv (r p x : list C) : Prop := {
    i_r : NoDup r;
    i_p : NoDup p;
    i_rp : forall c, In c r -> ~ In c p /\ ~ In c x;
    i_in : incl r nodes /\ incl p nodes /\ incl x nodes;
    i_rr : forall a b, In a r -> In b r -> a <> b -> J a b;
    i_rx : forall a b, In a r -> In b p \/ In b x -> J a b
  }.

  Record Cand (r p x S : list C) : Prop := {
    c_nd : NoDup S;
    c_lo : incl r S;
    c_hi : forall c, In c S -> In c r \/ In c p;
    c_j : forall a b, In a S -> In b S -> a <> b -> J a b;
    c_max : forall c, In c p \/ In c x -> (forall a, In a S -> a <> c -> J a c) -> In c S
  }.

  Definition Apart (l : list (list C)) : Prop := ForallOrdPairs (fun S S' => ~ Permutation S S') l.

  Lemma apart_app : forall l1 l2, Apart l1 -> Apart l2 ->
    (forall S S', In S l1 -> In S' l2 -> ~ Permutation S S') -> Apart (l1 ++ l2).
  Proof.
    induction l1 as [|S l1 IH]; intros l2 H1 H2 HX; cbn [app]; auto.
    inversion H1 as [|? ? HS H1']; subst. constructor.
    - apply Forall_app. split; auto. rewrite Forall_forall. intros S' HS'. apply HX; auto. left; auto.
    - apply IH; auto. intros S0 S' HS0 HS'. apply HX; auto. right; auto.
  Qed.

  Notation rm v p := (filter (fun y => negb (eqb v y)) p).

  Lemma in_rm : forall v p c, In c (rm v p) <-> In c p /\ v <> c.
  Proof.
    intros v p c. rewrite filter_In, negb_true_iff. split; intros [H1 H2]; split; auto.
    - intros E. apply EQ in E. congruence.
    - destruct (eqb v c) eqn:E; auto. apply EQ in E. contradiction.
  Qed.

  Lemma filter_short : forall (f : C -> bool) l, (length (filter f l) <= length l)%nat.
  Proof. intros f. induction l as [|y l IH]; cbn [filter length]; [lia|]. destruct (f y); cbn [length]; lia. Qed.

  Lemma rm_shorter : forall v p, In v p -> (length (rm v p) < length p)%nat.
  Proof.
    intros v p. induction p as [|y p IH]; intros Hv; [destruct Hv|]. cbn [filter length].
    destruct (eqb v y) eqn:E; cbn [negb].
    - pose proof (filter_short (fun y => negb (eqb v y)) p). lia.
    - destruct Hv as [->|Hv]; [rewrite (proj2 (EQ v v) eq_refl) in E; discriminate|].
      specialize (IH Hv). cbn [length]. lia.
  Qed.

  Section Pick.
    Context (r p x ns : list C) (v : C) (IV : Inv r p x) (Hv : In v p)
      (NS : forall y, mem eqb ns y = true <-> In y (nbs v)).
    Notation p1 := (rm v p).
    Notation p2 := (filter (mem eqb ns) p1).
    Notation x2 := (filter (mem eqb ns) x).

    Lemma in_p2 : forall c, In c p2 <-> In c p /\ v <> c /\ J v c.
    Proof. intros c. rewrite filter_In, in_rm, NS. tauto. Qed.
    Lemma in_x2 : forall c, In c x2 <-> In c x /\ J v c.
    Proof. intros c. rewrite filter_In, NS. tauto. Qed.

    Hypothesis Hvx : ~ In v x.

    Lemma pick_inv : Inv (v :: r) p2 x2.
    Proof.
      destruct IV as [I1 I2 I3 (I4 & I5 & I6) I7 I8].
      assert (Hvr : ~ In v r) by (intros H; destruct (I3 v H); contradiction).
      constructor.
      - constructor; auto.
      - do 2 apply NoDup_filter. auto.
      - intros c Hc. rewrite in_p2, in_x2. destruct Hc as [<-|Hc]; [tauto|].
        destruct (I3 c Hc). tauto.
      - split; [|split].
        + intros c [<-|Hc]; auto.
        + intros c Hc. apply in_p2 in Hc. apply I5; tauto.
        + intros c Hc. apply in_x2 in Hc. apply I6; tauto.
      - intros a b Ha Hb Hne. destruct Ha as [<-|Ha], Hb as [<-|Hb].
        + contradiction.
        + apply (SYM b v); auto.
        + apply I8; auto.
        + apply I7; auto.
      - intros a b Ha Hb. rewrite in_p2, in_x2 in Hb. destruct Ha as [<-|Ha]; [tauto|].
        apply I8; auto. tauto.
    Qed.

    Lemma pick_cand : forall S, Cand (v :: r) p2 x2 S <-> Cand r p x S /\ In v S.
    Proof.
      destruct IV as [I1 I2 I3 (I4 & I5 & I6) I7 I8]. intros S. split.
      - intros [C1 C2 C3 C4 C5]. split; [|apply C2; left; auto].
        assert (HvS : In v S) by (apply C2; left; auto).
        constructor; auto.
        + intros c Hc. apply C2. right; auto.
        + intros c Hc. destruct (C3 c Hc) as [[<-|H]|H]; auto. apply in_p2 in H. tauto.
        + intros c Hc HA. destruct (in_dec dec c S) as [H|H]; auto.
          assert (Hne : v <> c) by (intros ->; contradiction).
          apply C5; auto. rewrite in_p2, in_x2. pose proof (HA v HvS Hne). tauto.
      - intros [[C1 C2 C3 C4 C5] HvS]. constructor; auto.
        + intros c [<-|Hc]; auto.
        + intros c Hc. destruct (C3 c Hc) as [H|H]; [left; right; auto|].
          destruct (eqb v c) eqn:E; [apply EQ in E; subst; left; left; auto|].
          assert (Hne : v <> c) by (intros H'; apply EQ in H'; congruence).
          right. apply in_p2. auto.
        + intros c Hc. apply C5. rewrite in_p2, in_x2 in Hc. tauto.
    Qed.

    Lemma rest_inv : Inv r p1 (v :: x).
    Proof.
      destruct IV as [I1 I2 I3 (I4 & I5 & I6) I7 I8]. constructor; auto.
      - apply NoDup_filter; auto.
      - intros c Hc. destruct (I3 c Hc) as [H1 H2]. rewrite in_rm. split; [tauto|].
        intros [<-|H]; auto.
      - split; auto. split.
        + intros c Hc. apply in_rm in Hc. apply I5; tauto.
        + intros c [<-|Hc]; auto.
      - intros a b Ha Hb. rewrite in_rm in Hb. apply I8; auto.
        destruct Hb as [[Hb _]|[<-|Hb]]; auto.
    Qed.

    Lemma rest_cand : forall S, Cand r p1 (v :: x) S <-> Cand r p x S /\ ~ In v S.
    Proof.
      destruct IV as [I1 I2 I3 (I4 & I5 & I6) I7 I8]. intros S.
      split.
      - intros [C1 C2 C3 C4 C5]. split.
        + constructor; auto.
          * intros c Hc. destruct (C3 c Hc) as [H|H]; auto. apply in_rm in H. tauto.
          * intros c Hc. apply C5. rewrite in_rm. destruct (eqb v c) eqn:E.
            -- apply EQ in E. subst. right; left; auto.
            -- assert (Hne : v <> c) by (intros H'; apply EQ in H'; congruence).
               destruct Hc; [left|right; right]; auto.
        + intros HvS. destruct (C3 v HvS) as [H|H].
          * destruct (I3 v H). contradiction.
          * apply in_rm in H. tauto.
      - intros [[C1 C2 C3 C4 C5] HvS]. constructor; auto.
        + intros c Hc. destruct (C3 c Hc) as [H|H]; auto. right. apply in_rm. split; auto.
          intros ->. contradiction.
        + intros c Hc. apply C5. rewrite in_rm in Hc. destruct Hc as [[Hc _]|[<-|Hc]]; auto.
    Qed.
  End Pick.

  Lemma cand_perm : forall r p x S S', Cand r p x S -> Permutation S S' -> Cand r p x S'.
  Proof.
    intros r p x S S' [C1 C2 C3 C4 C5] HP.
    assert (HI : forall c, In c S <-> In c S').
    { intros c. split; apply Permutation_in; auto. apply Permutation_sym; auto. }
    constructor.
    - eapply Permutation_NoDup; eauto.
    - intros c Hc. apply HI, C2, Hc.
    - intros c Hc. apply C3, HI, Hc.
    - intros a b Ha Hb. apply C4; apply HI; auto.
    - intros c Hc HA. apply HI, C5; auto. intros a Ha. apply HA, HI, Ha.
  Qed.

  (** The lists of which are the sets that satisfy [P]. *)
  Definition Lists (P : list C -> Prop) (l : list (list C)) : Prop :=
    (forall S, In S l -> P S) /\ (forall S, P S -> exists S', In S' l /\ Permutation S S') /\ Apart l.

  Definition Call (fuel : nat) : Prop := forall r p x, Inv r p x ->
    (forall c, In c p -> ~ In c x) -> (length p < fuel)%nat ->
    exists l, bk fuel r p x = Ok l /\ Lists (Cand r p x) l.

  Notation step fuel r := (fun (st : list (list C) * list C * list C) v =>
    let '(cliques, p, x) := st in
    let! neighbors := around_set v in
    let p := rm v p in
    let! more := bk fuel (v :: r) (filter (mem eqb neighbors) p)
                   (filter (mem eqb neighbors) x) in
    Ok (cliques ++ more, p, v :: x)).

  Lemma fold_ok : forall fuel r, Call fuel -> forall td p x cl, Inv r p x ->
    (forall c, In c p -> ~ In c x) -> (length p <= fuel)%nat -> NoDup td -> incl td p ->
    exists l p' x', fold_outcome (step fuel r) td (cl, p, x) = Ok (cl ++ l, p', x') /\
      Lists (fun S => Cand r p x S /\ exists v, In v td /\ In v S) l.
  Proof.
    intros fuel r HC. induction td as [|v td IH]; intros p x cl IV HX HL HN HI; cbn [fold_outcome].
    - exists [], p, x. rewrite app_nil_r. split; auto. split; [intros S []|]. split; [|constructor].
      intros S [_ (v & [] & _)].
    - assert (Hv : In v p) by (apply HI; left; auto).
      assert (Hvn : In v nodes) by (destruct (i_in _ _ _ IV) as (_ & H & _); auto).
      destruct (around_ok v Hvn) as (ns & -> & NS). cbn [bind].
      destruct (HC (v :: r) (filter (mem eqb ns) (rm v p)) (filter (mem eqb ns) x)) as (l1 & -> & L1 & L2 & L3).
      { apply pick_inv; auto. }
      { intros c Hc Hc'. rewrite (in_p2 _ _ _ NS) in Hc. rewrite (in_x2 _ _ _ NS) in Hc'.
        apply (HX c); tauto. }
      { pose proof (rm_shorter v p Hv). pose proof (filter_short (mem eqb ns) (rm v p)). lia. }
      cbn [bind]. inversion HN as [|? ? Hvt HN']; subst.
      destruct (IH (rm v p) (v :: x) (cl ++ l1)) as (l2 & p' & x' & Ef & M1 & M2 & M3); auto.
      { eapply rest_inv; eauto. }
      { intros c Hc. apply in_rm in Hc. intros [E|Hc']; [tauto|]. apply (HX c); tauto. }
      { pose proof (rm_shorter v p Hv). lia. }
      { intros c Hc. apply in_rm. split; [apply HI; right; auto|]. intros ->. contradiction. }
      exists (l1 ++ l2), p', x'. rewrite app_assoc. split; [exact Ef|]. split; [|split].
      + intros S HS. apply in_app_or in HS. destruct HS as [HS|HS].
        * apply L1 in HS. apply (pick_cand _ _ _ _ _ IV Hv NS (HX v Hv)) in HS.
          destruct HS as [HS HvS]. split; auto. exists v. split; auto. left; auto.
        * destruct (M1 S HS) as (HS' & w & Hw & HwS). apply (rest_cand _ _ _ _ _ IV Hv NS (HX v Hv)) in HS'.
          split; [tauto|]. exists w. split; auto. right; auto.
      + intros S (HS & w & Hw & HwS).
        destruct (in_dec dec v S) as [HvS|HvS].
        * destruct (L2 S) as (S' & HS' & HP).
          { apply (pick_cand _ _ _ _ _ IV Hv NS (HX v Hv)). auto. }
          exists S'. split; auto. apply in_or_app; auto.
        * destruct (M2 S) as (S' & HS' & HP).
          { split; [apply (rest_cand _ _ _ _ _ IV Hv NS (HX v Hv)); auto|]. exists w. split; auto.
            destruct Hw as [->|Hw]; [contradiction|auto]. }
          exists S'. split; auto. apply in_or_app; auto.
      + apply apart_app; auto. intros S S' HS HS' HP.
        apply L1 in HS. apply (pick_cand _ _ _ _ _ IV Hv NS (HX v Hv)) in HS.
        destruct (M1 S' HS') as (HS2 & _). apply (rest_cand _ _ _ _ _ IV Hv NS (HX v Hv)) in HS2.
        destruct HS as [_ HvS]. destruct HS2 as [_ HvS']. apply HvS'. eapply Permutation_in; eauto.
  Qed.

  Lemma lists_iff : forall P Q l, (forall S, P S <-> Q S) -> Lists P l -> Lists Q l.
  Proof.
    intros P Q l HE (L1 & L2 & L3). split; [|split; auto].
    - intros S HS. apply HE; auto.
    - intros S HS. apply L2, HE; auto.
  Qed.

  Lemma call_ok : forall fuel, Call fuel.
  Proof.
    induction fuel as [|fuel IH]; intros r p x IV HX HL; [lia|].
    cbn [bron_kerbosch]. destruct p as [|c0 p0] eqn:EP.
    - destruct x as [|y x].
      + exists [r]. split; auto. destruct IV as [I1 I2 I3 (I4 & I5 & I6) I7 I8]. split; [|split].
        * intros S [<-|[]]. constructor; auto. { intros c Hc; auto. } { intros c [[]|[]]. }
        * intros S [C1 C2 C3 C4 C5]. exists r. split; [left; auto|].
          apply NoDup_Permutation; auto. intros c. split; auto. intros Hc. destruct (C3 c Hc) as [H|[]]; auto.
        * repeat constructor.
      + exists []. split; auto. split; [intros S []|]. split; [|constructor].
        intros S [C1 C2 C3 C4 C5]. exfalso. destruct IV as [I1 I2 I3 (I4 & I5 & I6) I7 I8].
        assert (Hy : In y S).
        { apply C5; [right; left; auto|]. intros a Ha Hne. destruct (C3 a Ha) as [H|[]].
          apply I8; auto. right; left; auto. }
        destruct (C3 y Hy) as [H|[]]. destruct (I3 y H) as [_ H']. apply H'. left; auto.
    - rewrite <- EP in *. 
      pose proof (ORD r p) as HP.
      assert (HO : forall c, In c (order r p) <-> In c p).
      { intros c. split; apply Permutation_in; auto. apply Permutation_sym; auto. }
      assert (Hpn : incl p nodes) by (destruct (i_in _ _ _ IV) as (_ & H & _); auto).
      assert (Hon : incl (order r p) nodes) by (intros c Hc; apply Hpn, HO, Hc).
      destruct (order r p) as [|v0 l0] eqn:EO.
      { exfalso. apply Permutation_nil in HP. congruence. }
      destruct (pivot_ok l0 v0) as (u & Eu & Hu).
      { apply Hon; left; auto. } { intros c Hc; apply Hon; right; auto. }
      rewrite Eu. cbn [bind].
      destruct (select_ok u (v0 :: l0)) as (todo & Et & HN & HT); auto.
      { eapply Permutation_NoDup; [apply Permutation_sym; exact HP|]. exact (i_p _ _ _ IV). }
      rewrite Et. cbn [bind].
      destruct (fold_ok fuel r IH (rev todo) p x []) as (l & p' & x' & Ef & HLs); auto.
      { lia. } { apply NoDup_rev; auto. }
      { intros c Hc. apply in_rev in Hc. apply HO. apply HT in Hc. tauto. }
      exists l. split.
      { assert (HH : forall F : outcome (list (list C) * list C * list C), F = Ok (l, p', x') ->
          (let! (st, _) := F in Ok (fst st)) = Ok l) by (intros F ->; reflexivity).
        apply HH. exact Ef. }
      revert HLs. apply lists_iff.
      intros S. split; [tauto|]. intros HS. split; auto.
      destruct (existsb (fun v => existsb (eqb v) S) todo) eqn:EX.
      + apply existsb_exists in EX. destruct EX as (v & Hv & HvS). apply existsb_exists in HvS.
        destruct HvS as (w & Hw & E). apply EQ in E. subst w. exists v. split; auto.
        apply -> in_rev. auto.
      + exfalso.
        assert (HNO : forall v, In v todo -> ~ In v S).
        { intros v Hv HvS. assert (existsb (fun v => existsb (eqb v) S) todo = true); [|congruence].
          apply existsb_exists. exists v. split; auto. apply existsb_exists. exists v. split; auto.
          apply EQ; auto. }
        assert (Hup : In u p) by (apply HO; auto).
        assert (Hut : In u todo) by (apply HT; auto).
        apply (HNO u Hut). apply (c_max _ _ _ _ HS); auto. intros a Ha Hne.
        destruct (c_hi _ _ _ _ HS a Ha) as [Har|Hap].
        * apply (i_rx _ _ _ IV); auto.
        * assert (Hau : In a (nbs u)).
          { destruct (ADJ u a (Hpn u Hup)) as (b & _ & Hb). destruct b; [apply Hb; auto|].
            exfalso. apply (HNO a); auto. apply HT. split; [apply HO; auto|]. right. intros H.
            apply Hb in H. discriminate. }
          apply SYM; auto.
  Qed.

  Theorem maximal_cliques_ok :
    exists l, maximal_cliques eqb order ids ids_next nb nb_next is_adjacent = Ok l /\
      ListsCliques J nodes l.
  Proof.
    unfold maximal_cliques. rewrite (for_each_exact _ _ _ _ _ _ _ _ IDS SIZE).
    rewrite (fold_total _ _ (fun l c => l ++ [c])).
    assert (HF : forall l acc : list C, fold_left (fun l c => l ++ [c]) l acc = acc ++ l).
    { induction l as [|c l IH]; intros acc; cbn [fold_left]; [rewrite app_nil_r; auto|].
      rewrite IH, <- app_assoc. auto. }
    rewrite HF. cbn [bind app].
    destruct (call_ok (S (length nodes)) [] nodes []) as (l & E & L1 & L2 & L3); [| |lia|].
    { constructor; auto; try (intros c []); try (intros a b []); [constructor|].
      split; [intros c []|]. split; [intros c Hc; auto|intros c []]. }
    { intros c _ []. }
    exists l. split; auto.
    assert (HE : forall S, Cand [] nodes [] S <-> MaximalClique J nodes S).
    { intros S. split.
      - intros [C1 C2 C3 C4 C5]. split; [split; [auto|split; auto]|].
        + intros c Hc. destruct (C3 c Hc) as [[]|H]; auto.
        + intros c Hc. apply C5; auto.
      - intros [(C1 & C2 & C3) C4]. constructor; auto. { intros c []. }
        intros c [Hc|[]]. apply C4; auto. }
    split; [|split].
    - intros S HS. apply HE; auto.
    - intros S HS. apply L2, HE; auto.
    - intros l1 S l2 S' l3 E2. subst l. clear - L3. revert L3. induction l1 as [|T l1 IH]; cbn [app]; intros H.
      + inversion H as [|? ? HS _]; subst. rewrite Forall_forall in HS. apply HS.
        apply in_or_app. right. left. auto.
      + inversion H; subst. auto.
  Qed.
End Cliques.
