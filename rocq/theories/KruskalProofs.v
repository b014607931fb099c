(** * KruskalProofs: counting linked classes, and why choosing the lightest useful edges gives
    a lightest spanning tree. *)

From Coq Require Import Permutation.
From Verif Require Import Machine Kruskal Spec7 Basics.
From Coq Require Import ZifyBool ZifyNat.

Lemma linked_mono : forall X (es es' : list (X * X)), incl es es' ->
  forall x y, Linked es x y -> Linked es' x y.
Proof.
  intros X es es' HI x y HL. induction HL.
  - apply linked_edge. auto.
  - apply linked_refl.
  - apply linked_sym. auto.
  - eapply linked_trans; eauto.
Qed.

Lemma linked_sub : forall X (es es' : list (X * X)),
  (forall a b, In (a, b) es -> Linked es' a b) -> forall x y, Linked es x y -> Linked es' x y.
Proof.
  intros X es es' HI x y HL. induction HL; auto.
  - apply linked_refl.
  - apply linked_sym. auto.
  - eapply linked_trans; eauto.
Qed.

(** ** Classes *)

Section Classes.
  Context {X : Type} (dec : forall a b : X, {a = b} + {a <> b}).

  (** A label for every element: linked elements have the same. *)
  Fixpoint lab (es : list (X * X)) : X -> X :=
    match es with
    | [] => fun x => x
    | (a, b) :: es => fun x => if dec (lab es x) (lab es b) then lab es a else lab es x
    end.

  Lemma lab_edge : forall es a b, In (a, b) es -> lab es a = lab es b.
  Proof.
    induction es as [|[a' b'] es IH]; intros a b Hi; [destruct Hi|]. cbn [lab].
    destruct Hi as [[= -> ->]|Hi].
    - destruct (dec (lab es b) (lab es b)) as [_|Hn]; [|congruence].
      destruct (dec (lab es a) (lab es b)); auto.
    - rewrite (IH a b Hi). auto.
  Qed.

  Lemma lab_linked : forall es x y, Linked es x y <-> lab es x = lab es y.
  Proof.
    intros es x y. split.
    - intros HL. induction HL; auto; [apply lab_edge; auto|congruence].
    - revert x y. induction es as [|[a b] es IH]; intros x y HE; cbn [lab] in HE.
      + subst. apply linked_refl.
      + assert (M : forall x y, Linked es x y -> Linked ((a, b) :: es) x y)
          by (apply linked_mono; intros z Hz; right; auto).
        assert (AB : Linked ((a, b) :: es) a b) by (apply linked_edge; left; auto).
        destruct (dec (lab es x) (lab es b)) as [E1|E1], (dec (lab es y) (lab es b)) as [E2|E2].
        * apply M, IH. congruence.
        * apply IH in E1. apply IH in HE.
          eapply linked_trans; [apply M; exact E1|]. eapply linked_trans; [apply linked_sym, AB|].
          apply M; auto.
        * apply IH in E2. apply IH in HE.
          eapply linked_trans; [apply M; exact HE|]. eapply linked_trans; [exact AB|].
          apply M, linked_sym. auto.
        * apply M, IH. auto.
  Qed.

  Lemma linked_dec : forall (es : list (X * X)) x y, {Linked es x y} + {~ Linked es x y}.
  Proof.
    intros es x y. destruct (dec (lab es x) (lab es y)) as [Ed|Ed]; [left|right];
      rewrite lab_linked; auto.
  Qed.

  Definition ncl (nodes : list X) (es : list (X * X)) : nat :=
    length (nodup dec (map (lab es) nodes)).

  Lemma nodup_map_le : forall (f g : X -> X) l,
    (forall x y, In x l -> In y l -> f x = f y -> g x = g y) ->
    (length (nodup dec (map g l)) <= length (nodup dec (map f l)))%nat.
  Proof.
    intros f g l. induction l as [|x l IH]; intros HF; cbn [map nodup]; auto.
    assert (IH' : (length (nodup dec (map g l)) <= length (nodup dec (map f l)))%nat).
    { apply IH. intros y z Hy Hz. apply HF; right; auto. }
    destruct (in_dec dec (f x) (map f l)) as [Hi|Hn].
    - destruct (in_dec dec (g x) (map g l)) as [Hi'|Hn']; auto.
      exfalso. apply Hn'. apply in_map_iff in Hi. destruct Hi as (y & Y1 & Y2).
      apply in_map_iff. exists y. split; auto. apply HF; auto; [right|left]; auto.
    - destruct (in_dec dec (g x) (map g l)); cbn [length]; lia.
  Qed.

  Lemma ncl_mono : forall nodes es es',
    (forall x y, In x nodes -> In y nodes -> Linked es x y -> Linked es' x y) ->
    (ncl nodes es' <= ncl nodes es)%nat.
  Proof.
    intros nodes es es' HM. apply nodup_map_le. intros x y Hx Hy HE.
    apply lab_linked. apply HM; auto. apply lab_linked. auto.
  Qed.

  Lemma ncl_ext : forall nodes es es',
    (forall x y, Linked es x y <-> Linked es' x y) -> ncl nodes es = ncl nodes es'.
  Proof.
    intros nodes es es' HE. apply Nat.le_antisymm; apply ncl_mono; intros x y _ _; apply HE.
  Qed.

  Lemma ncl_same : forall nodes es a b, Linked es a b -> ncl nodes ((a, b) :: es) = ncl nodes es.
  Proof.
    intros nodes es a b HL. apply ncl_ext. intros x y. split.
    - apply linked_sub. intros c d [[= -> ->]|Hi]; auto. apply linked_edge; auto.
    - apply linked_mono. intros z Hz. right; auto.
  Qed.

  Lemma ncl_less : forall nodes es a b, ~ Linked es a b -> In a nodes -> In b nodes ->
    ncl nodes es = S (ncl nodes ((a, b) :: es)).
  Proof.
    intros nodes es a b HN Ha Hb. unfold ncl.
    assert (Hab : lab es a <> lab es b) by (intros Hx; apply HN, lab_linked; auto).
    change (S (length (nodup dec (map (lab ((a, b) :: es)) nodes))))
      with (length (lab es b :: nodup dec (map (lab ((a, b) :: es)) nodes))).
    apply Permutation_length, NoDup_Permutation.
    - apply NoDup_nodup.
    - constructor; [|apply NoDup_nodup]. rewrite nodup_In, in_map_iff. intros (x & X1 & _).
      cbn [lab] in X1. destruct (dec (lab es x) (lab es b)); congruence.
    - intros y. cbn [In]. rewrite !nodup_In, !in_map_iff. split.
      + intros (x & <- & Hx). destruct (dec (lab es x) (lab es b)) as [Ed|Ed]; [left; auto|right].
        exists x. split; auto. cbn [lab]. destruct (dec (lab es x) (lab es b)); congruence.
      + intros [<-|(x & <- & Hx)]; [exists b; auto|]. cbn [lab].
        destruct (dec (lab es x) (lab es b)); [exists a|exists x]; auto.
  Qed.

  Lemma ncl_nil : forall nodes, NoDup nodes -> ncl nodes [] = length nodes.
  Proof.
    intros nodes HN. unfold ncl. cbn [lab]. rewrite map_id, nodup_fixed_point; auto.
  Qed.

  Lemma ncl_app : forall nodes F es, (forall a b, In (a, b) F -> In a nodes /\ In b nodes) ->
    (ncl nodes es <= ncl nodes (F ++ es) + length F)%nat.
  Proof.
    intros nodes F es. induction F as [|[a b] F IH]; intros HF; cbn [app length]; [lia|].
    assert (IH' : (ncl nodes es <= ncl nodes (F ++ es) + length F)%nat).
    { apply IH. intros c d Hi. apply HF. right; auto. }
    destruct (HF a b) as [Ha Hb]; [left; auto|].
    destruct (linked_dec (F ++ es) a b) as [HL|HL].
    - rewrite (ncl_same _ _ _ _ HL). lia.
    - pose proof (ncl_less nodes _ _ _ HL Ha Hb). lia.
  Qed.

  Lemma ncl_one : forall nodes es, (forall a b, In a nodes -> In b nodes -> Linked es a b) ->
    ncl nodes es = match nodes with [] => 0%nat | _ => 1%nat end.
  Proof.
    intros nodes es HA. unfold ncl. destruct nodes as [|c nodes]; auto.
    assert (NoDup (nodup dec (map (lab es) (c :: nodes)))) as ND by apply NoDup_nodup.
    assert (HI : forall y, In y (nodup dec (map (lab es) (c :: nodes))) <-> y = lab es c).
    { intros y. rewrite nodup_In, in_map_iff. split.
      - intros (x & <- & Hx). apply lab_linked, HA; auto. left; auto.
      - intros ->. exists c. split; auto. left; auto. }
    destruct (nodup dec (map (lab es) (c :: nodes))) as [|y [|z l]]; auto.
    - destruct (proj2 (HI (lab es c)) eq_refl).
    - exfalso. pose proof (proj1 (HI y) (or_introl eq_refl)).
      pose proof (proj1 (HI z) (or_intror (or_introl eq_refl))).
      inversion ND as [|? ? Hn _]. apply Hn. left. congruence.
  Qed.
End Classes.

(** ** Weights *)

Definition above (t : Z) (l : list Z) : nat := length (filter (fun x => t <? x) l).
Definition zsum (l : list Z) : Z := fold_right Z.add 0 l.

Lemma sum_layers : forall m l, (forall x, In x l -> m <= x) ->
  forall k, (forall x, In x l -> x <= m + Z.of_nat k) ->
  zsum l = m * Z.of_nat (length l) +
    zsum (map (fun i => Z.of_nat (above (m + Z.of_nat i) l)) (seq 0 k)).
Proof.
  intros m l Hm k Hk.
  assert (ONE : forall x j, m <= x -> x <= m + Z.of_nat j ->
    zsum (map (fun i => if m + Z.of_nat i <? x then 1 else 0) (seq 0 j)) = x - m).
  { intros x j Hx. induction j as [|j IH]; intros Hj; [cbn; lia|].
    rewrite seq_S, map_app. cbn [map]. unfold zsum in *.
    rewrite fold_right_app. cbn [fold_right plus].
    assert (SH : forall z (l : list Z), fold_right Z.add z l = fold_right Z.add 0 l + z).
    { clear. intros z l. induction l as [|a l IH]; cbn [fold_right]; lia. }
    rewrite SH. destruct (Z.ltb_spec (m + Z.of_nat j) x).
    - assert (x = m + Z.of_nat j + 1) by lia.
      clear IH. subst x. clear -SH.
      assert (AL : forall a, (a <= j)%nat -> fold_right Z.add 0
        (map (fun i => if m + Z.of_nat i <? m + Z.of_nat j + 1 then 1 else 0) (seq 0 a)) = Z.of_nat a).
      { induction a as [|a IHa]; intros Ha; auto. rewrite seq_S, map_app, fold_right_app.
        cbn [map fold_right plus]. rewrite SH, IHa by lia.
        destruct (Z.ltb_spec (m + Z.of_nat a) (m + Z.of_nat j + 1)); lia. }
      rewrite AL by lia. lia.
    - rewrite IH by lia. lia. }
  induction l as [|x l IH].
  - cbn. rewrite Z.mul_0_r. cbn. induction (seq 0 k) as [|a s IHs]; cbn; auto.
  - cbn [zsum fold_right length]. fold (zsum l).
    rewrite IH by (intros y Hy; (apply Hm || apply Hk); right; auto).
    specialize (ONE x k (Hm x (or_introl eq_refl)) (Hk x (or_introl eq_refl))).
    replace (map (fun i => Z.of_nat (above (m + Z.of_nat i) (x :: l))) (seq 0 k))
      with (map (fun i => (if m + Z.of_nat i <? x then 1 else 0) + Z.of_nat (above (m + Z.of_nat i) l))
        (seq 0 k)).
    2:{ apply map_ext. intros i. unfold above. cbn [filter].
        destruct (m + Z.of_nat i <? x); cbn [length]; lia. }
    assert (ADD : forall (f g : nat -> Z) s,
      zsum (map (fun i => f i + g i) s) = zsum (map f s) + zsum (map g s)).
    { clear. intros f g s. unfold zsum. induction s as [|a s IH]; cbn [map fold_right]; lia. }
    rewrite ADD, ONE. lia.
Qed.

Lemma sum_dominated : forall m A B, (forall x, In x (A ++ B) -> m <= x) ->
  (forall t, (above t A <= above t B)%nat) ->
  zsum A - m * Z.of_nat (length A) <= zsum B - m * Z.of_nat (length B).
Proof.
  intros m A B Hm HD.
  assert (exists k : nat, forall x, In x (A ++ B) -> x <= m + Z.of_nat k) as (k & Hk).
  { clear HD. induction (A ++ B) as [|x l IH]; [exists 0%nat; intros ? []|].
    destruct IH as (k & Hk); [intros y Hy; apply Hm; right; auto|].
    exists (Nat.max k (Z.to_nat (x - m))). intros y [<-|Hy]; [lia|]. specialize (Hk y Hy). lia. }
  rewrite (sum_layers m A) with (k := k), (sum_layers m B) with (k := k);
    try (intros x Hx; (apply Hm || apply Hk); apply in_or_app; auto; fail).
  assert (zsum (map (fun i => Z.of_nat (above (m + Z.of_nat i) A)) (seq 0 k)) <=
    zsum (map (fun i => Z.of_nat (above (m + Z.of_nat i) B)) (seq 0 k))); [|lia].
  induction (seq 0 k) as [|a s IH]; cbn [map zsum fold_right] in *; [lia|]. specialize (HD (m + Z.of_nat a)).
  unfold zsum in IH. lia.
Qed.

(** ** Choosing edges *)

Section Choose.
  Context {X : Type} (dec : forall a b : X, {a = b} + {a <> b}) (nodes : list X)
    (HN : NoDup nodes).
  Notation edge := (WEdge X).

  (** [Chosen done T]: going through [done] (last first), the edges [T] were chosen, those
      whose ends were not linked yet. *)
  Inductive Chosen : list edge -> list edge -> Prop :=
  | ch_nil : Chosen [] []
  | ch_take a b w done T : Chosen done T -> ~ Linked (ends done) a b ->
      Chosen ((a, b, w) :: done) ((a, b, w) :: T)
  | ch_skip a b w done T : Chosen done T -> Linked (ends done) a b ->
      Chosen ((a, b, w) :: done) T.

  Definition Inside (es : list edge) : Prop :=
    forall a b w, In (a, b, w) es -> In a nodes /\ In b nodes.

  (** No edge is lighter than those before it. *)
  Inductive Rising : list edge -> Prop :=
  | ri_nil : Rising []
  | ri_cons e es : (forall x, In x es -> snd x <= snd e) -> Rising es -> Rising (e :: es).

  Lemma ends_in : forall (es : list edge) a b, In (a, b) (ends es) <-> exists w, In (a, b, w) es.
  Proof.
    intros es a b. unfold ends. rewrite in_map_iff. split.
    - intros ([[c d] w] & [= -> ->] & Hi). exists w. auto.
    - intros (w & Hi). exists (a, b, w). auto.
  Qed.

  Lemma inside_cons : forall e es, Inside (e :: es) ->
    Inside es /\ In (fst (fst e)) nodes /\ In (snd (fst e)) nodes.
  Proof.
    intros [[a b] w] es HI. split.
    - intros c d x Hx. apply (HI c d x). right; auto.
    - apply (HI a b w). left; auto.
  Qed.

  Lemma chosen_incl : forall done T, Chosen done T -> incl T done.
  Proof.
    induction 1; intros e He; auto.
    - destruct He as [<-|He]; [left; auto|right; auto].
    - right. auto.
  Qed.

  Lemma chosen_some : forall done T, Chosen done T -> Some_of done T.
  Proof.
    induction 1 as [|a b w done T _ (rest & IH) _|a b w done T _ (rest & IH) _].
    - exists []. auto.
    - exists rest. cbn [app]. apply perm_skip. auto.
    - exists ((a, b, w) :: rest). etransitivity; [apply perm_skip, IH|]. apply Permutation_middle.
  Qed.

  Lemma chosen_linked : forall done T, Chosen done T ->
    forall x y, Linked (ends T) x y <-> Linked (ends done) x y.
  Proof.
    intros done T HC x y. split.
    - apply linked_mono. intros e He. unfold ends in *. apply in_map_iff in He.
      destruct He as (e' & <- & He). apply in_map. eapply chosen_incl; eauto.
    - revert x y. induction HC as [|a b w done T HC IH HL|a b w done T HC IH HL]; intros x y; auto.
      + apply linked_sub. cbn [ends map fst]. intros c d [[= -> ->]|Hi].
        * apply linked_edge. left; auto.
        * apply linked_mono with (es := ends T); [intros z Hz; right; auto|].
          apply IH. apply linked_edge. auto.
      + apply linked_sub. cbn [ends map fst]. intros c d [[= -> ->]|Hi]; apply IH; auto.
        apply linked_edge. auto.
  Qed.

  Lemma chosen_length : forall done T, Chosen done T -> Inside done ->
    (length T + ncl dec nodes (ends done) = length nodes)%nat.
  Proof.
    induction 1 as [|a b w done T HC IH HL|a b w done T HC IH HL]; intros HI.
    - cbn [ends map length]. rewrite ncl_nil; auto.
    - apply inside_cons in HI. destruct HI as (HI & Ha & Hb). specialize (IH HI).
      cbn [ends map fst length]. fold (ends done).
      pose proof (ncl_less dec nodes (ends done) a b HL Ha Hb). lia.
    - apply inside_cons in HI. destruct HI as (HI & Ha & Hb). specialize (IH HI).
      cbn [ends map fst length]. fold (ends done). rewrite ncl_same; auto.
  Qed.

  Definition heavy (t : Z) (es : list edge) := filter (fun e => t <? snd e) es.
  Definition light (t : Z) (es : list edge) := filter (fun e => snd e <=? t) es.

  Lemma heavy_above : forall t es, above t (map snd es) = length (heavy t es).
  Proof.
    intros t es. unfold above, heavy. induction es as [|e es IH]; cbn [map filter]; auto.
    destruct (t <? snd e); cbn [length]; auto.
  Qed.

  (** The heavy edges chosen are as many as it takes to connect what the light ones leave. *)
  Lemma chosen_heavy : forall t done T, Chosen done T -> Inside done -> Rising done ->
    (length (heavy t T) + ncl dec nodes (ends done) = ncl dec nodes (ends (light t done)))%nat.
  Proof.
    intros t done T HC. induction HC as [|a b w done T HC IH HL|a b w done T HC IH HL]; intros HI HR.
    - auto.
    - apply inside_cons in HI. destruct HI as (HI & Ha & Hb). cbn [fst snd] in Ha, Hb.
      inversion HR as [|e es HM HR']; subst. specialize (IH HI HR').
      unfold heavy, light. cbn [filter snd]. fold (heavy t T). fold (light t done).
      destruct (Z.ltb_spec t w), (Z.leb_spec w t); try lia; cbn [length ends map fst]; fold (ends done).
      + pose proof (ncl_less dec nodes (ends done) a b HL Ha Hb). lia.
      + assert (EL : light t done = done).
        { clear - HM H0. cbn [snd] in HM. induction done as [|e done IH]; auto. unfold light. cbn [filter].
          destruct (Z.leb_spec (snd e) t).
          - f_equal. apply IH. intros x Hx. apply HM. right; auto.
          - specialize (HM e (or_introl eq_refl)). lia. }
        assert (EH : heavy t T = []).
        { assert (forall x, In x T -> snd x <= t) as HT.
          { intros x Hx. apply (chosen_incl _ _ HC) in Hx. specialize (HM x Hx). cbn [snd] in HM. lia. }
          clear - HT. induction T as [|e T IH]; auto. unfold heavy. cbn [filter].
          destruct (Z.ltb_spec t (snd e)).
          - specialize (HT e (or_introl eq_refl)). lia.
          - apply IH. intros x Hx. apply HT. right; auto. }
        rewrite EH, EL. auto.
    - apply inside_cons in HI. destruct HI as (HI & Ha & Hb).
      inversion HR as [|e es HM HR']; subst. specialize (IH HI HR').
      unfold heavy, light. cbn [filter snd]. fold (heavy t T). fold (light t done).
      destruct (Z.leb_spec w t); cbn [ends map fst]; fold (ends done); rewrite ncl_same by auto; auto.
      assert (EL : light t done = done).
      { clear - HM H. cbn [snd] in HM. induction done as [|e done IH]; auto. unfold light. cbn [filter].
        destruct (Z.leb_spec (snd e) t).
        - f_equal. apply IH. intros x Hx. apply HM. right; auto.
        - specialize (HM e (or_introl eq_refl)). lia. }
      rewrite EL in *. fold (ends done). rewrite ncl_same by auto. auto.
  Qed.

  Lemma some_incl : forall es F : list edge, Some_of es F -> incl F es.
  Proof.
    intros es F (rest & HP) e He. apply (Permutation_in _ (Permutation_sym HP)).
    apply in_or_app. auto.
  Qed.

  Lemma chosen_dominated : forall done T, Chosen done T -> Inside done -> Rising done ->
    forall F, Some_of done F -> Spans nodes done F ->
    forall t, (length (heavy t T) <= length (heavy t F))%nat.
  Proof.
    intros done T HC HI HR F HF HS t. pose proof (chosen_heavy t done T HC HI HR) as H1.
    apply some_incl in HF.
    assert (H2 : (ncl dec nodes (ends (light t done)) <=
      ncl dec nodes (ends (heavy t F) ++ ends (light t done)) + length (ends (heavy t F)))%nat).
    { apply ncl_app. intros a b Hab. apply ends_in in Hab. destruct Hab as (w & Hw).
      apply filter_In in Hw. apply (HI a b w). apply HF. tauto. }
    assert (H3 : (ncl dec nodes (ends (heavy t F) ++ ends (light t done)) <= ncl dec nodes (ends done))%nat).
    { apply ncl_mono. intros x y Hx Hy HL.
      apply linked_mono with (es := ends F); [|apply HS; auto].
      intros [a b] Hab. apply ends_in in Hab. destruct Hab as (w & Hw). apply in_or_app.
      destruct (Z.ltb_spec t w) as [Hl|Hl].
      - left. apply ends_in. exists w. apply filter_In. split; auto. cbn [snd]. lia.
      - right. apply ends_in. exists w. apply filter_In. split; [apply HF; auto|]. cbn [snd]. lia. }
    replace (length (ends (heavy t F))) with (length (heavy t F)) in H2
      by (unfold ends; rewrite map_length; auto).
    lia.
  Qed.

  Lemma chosen_mst : forall done T, Chosen done T -> Inside done -> Rising done ->
    MinSpanningForest nodes done T.
  Proof.
    intros done T HC HI HR. pose proof (chosen_length done T HC HI) as HL.
    split; [apply chosen_some; auto|]. split.
    { intros a b Ha Hb HAB. apply (chosen_linked _ _ HC). auto. }
    intros F HF HFS.
    assert (DOM : forall t, (above t (map snd T) <= above t (map snd F))%nat).
    { intros t. rewrite !heavy_above. eapply chosen_dominated; eauto. }
    split.
    { pose proof (ncl_app dec nodes (ends F) []) as HA. rewrite app_nil_r, ncl_nil in HA by auto.
      replace (length (ends F)) with (length F) in HA by (unfold ends; rewrite map_length; auto).
      assert (HA' : (length nodes <= ncl dec nodes (ends F) + length F)%nat).
      { apply HA. intros a b Hab. apply (ends_in F) in Hab. destruct Hab as (w & Hw). apply (HI a b w).
        apply (some_incl _ _ HF). auto. }
      pose proof (ncl_mono dec nodes _ _ HFS). lia. }
    split.
    - intros HLF. unfold total.
      assert (exists m, forall x, In x (map snd T ++ map snd F) -> m <= x) as (m & Hm).
      { clear. induction (map snd T ++ map snd F) as [|x l (m & IH)]; [exists 0; intros ? []|].
        exists (Z.min m x). intros y [<-|Hy]; [lia|]. specialize (IH y Hy). lia. }
      pose proof (sum_dominated m _ _ Hm DOM) as HD. unfold zsum in HD.
      replace (length (map snd F)) with (length (map snd T)) in HD
        by (rewrite (map_length snd T), (map_length snd F); auto).
      lia.
    - intros HP. unfold total.
      assert (Hm : forall x, In x (map snd T ++ map snd F) -> 0 <= x).
      { intros x Hx. apply in_app_or in Hx. destruct Hx as [Hx|Hx]; apply in_map_iff in Hx;
          destruct Hx as (e & <- & He); apply HP.
        - eapply chosen_incl; eauto.
        - apply (some_incl _ _ HF). auto. }
      pose proof (sum_dominated 0 _ _ Hm DOM) as HD. unfold zsum in HD. lia.
  Qed.

  Lemma mst_perm : forall es es' T T', Permutation es es' -> Permutation T T' ->
    MinSpanningForest nodes es T -> MinSpanningForest nodes es' T'.
  Proof.
    assert (LP : forall es es' : list edge, Permutation es es' ->
      forall a b, Linked (ends es) a b -> Linked (ends es') a b).
    { intros es es' HP. apply linked_mono. intros e He. unfold ends in *.
      eapply Permutation_in; [apply Permutation_map, HP|]. auto. }
    assert (TP : forall T T' : list edge, Permutation T T' -> total T = total T').
    { induction 1; unfold total in *; cbn [map fold_right]; lia. }
    intros es es' T T' HP HT ((rest & R) & HS & HM). split; [|split].
    - exists rest. rewrite <- HP, <- HT. auto.
    - intros a b Ha Hb HL. apply (LP _ _ HT). apply HS; auto.
      apply (LP _ _ (Permutation_sym HP)). auto.
    - intros F (rest' & R') HF. destruct (HM F) as (M1 & M2 & M3).
      + exists rest'. rewrite HP. auto.
      + intros a b Ha Hb HL. apply HF; auto. apply (LP _ _ HP). auto.
      + rewrite <- (Permutation_length HT), <- (TP _ _ HT). split; auto. split; auto.
        intros H0. apply M3. intros e He. apply H0. eapply Permutation_in; eauto.
  Qed.

  Lemma chosen_exists : forall es, exists K, Chosen es K.
  Proof.
    induction es as [|[[a b] w] es (K & HK)]; [exists []; constructor|].
    destruct (linked_dec dec (ends es) a b) as [HL|HL].
    - exists K. apply ch_skip; auto.
    - exists ((a, b, w) :: K). apply ch_take; auto.
  Qed.

  Lemma mst_connects : forall es T, Connects nodes es -> MinSpanningForest nodes es T ->
    Connects nodes T.
  Proof. intros es T HC (_ & HS & _) a b Ha Hb. apply HS; auto. Qed.

  Lemma mst_length : forall es T, Connects nodes es -> Inside es -> MinSpanningForest nodes es T ->
    length T = pred (length nodes).
  Proof.
    intros es T HC HI (HT & HS & HM). apply Nat.le_antisymm.
    - destruct (chosen_exists es) as (K & HK). pose proof (chosen_length es K HK HI) as LK.
      rewrite (ncl_one dec nodes _ HC) in LK. destruct (HM K) as (M1 & _).
      + apply chosen_some. auto.
      + intros a b _ _ HL. apply (chosen_linked _ _ HK). auto.
      + destruct nodes; cbn [length] in *; lia.
    - pose proof (ncl_app dec nodes (ends T) []) as HA. rewrite app_nil_r, ncl_nil in HA by auto.
      replace (length (ends T)) with (length T) in HA by (unfold ends; rewrite map_length; auto).
      assert (HA' : (length nodes <= ncl dec nodes (ends T) + length T)%nat).
      { apply HA. intros a b Hab. apply (ends_in T) in Hab. destruct Hab as (w & Hw). apply (HI a b w).
        apply (some_incl _ _ HT). auto. }
      rewrite (ncl_one dec nodes (ends T)) in HA' by (intros a b Ha Hb; apply HS; auto).
      destruct nodes; cbn [length] in *; lia.
  Qed.

  Lemma components_exist : forall es,
    exists reps, Components nodes es reps /\ length reps = ncl dec nodes es.
  Proof.
    intros es. clear HN. unfold ncl, Components. induction nodes as [|c l (reps & (R1 & R2 & R3 & R4) & R5)].
    - exists []. split; [|reflexivity]. split; [intros a []|]. split; [constructor|].
      split; intros a; [intros []|intros b []].
    - cbn [map nodup]. destruct (in_dec dec (lab dec es c) (map (lab dec es) l)) as [Hi|Hn].
      + exists reps. split; auto. split; [intros x Hx; right; auto|]. split; auto. split; auto.
        apply in_map_iff in Hi. destruct Hi as (y & Y1 & Y2). apply lab_linked in Y1.
        intros a [<-|Ha]; auto. destruct (R3 y Y2) as (b & B1 & B2). exists b. split; auto.
        eapply linked_trans; [apply linked_sym; exact Y1|auto].
      + exists (c :: reps). cbn [length]. split; [|lia].
        assert (HX : forall b, In b reps -> ~ Linked es c b).
        { intros b Hb HL. apply Hn. apply in_map_iff. exists b. split; [|apply R1; auto].
          symmetry. apply lab_linked. auto. }
        split; [intros x [<-|Hx]; [left|right]; auto|].
        split; [constructor; auto; intros Hc; apply (HX c Hc), linked_refl|]. split.
        * intros a [<-|Ha]; [exists c; split; [left; auto|apply linked_refl]|].
          destruct (R3 a Ha) as (b & B1 & B2). exists b. split; auto. right; auto.
        * intros a b [<-|Ha] [<-|Hb] HL; auto.
          -- destruct (HX b Hb HL).
          -- destruct (HX a Ha). apply linked_sym. auto.
  Qed.
End Choose.
