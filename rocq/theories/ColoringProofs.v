(** * ColoringProofs: [dsatur_coloring] on any graph. *)

From Verif Require Import Machine Store Traverse Astar Basics TraverseProofs AnySearch Coloring Spec31.
From Coq Require Import ZifyBool ZifyNat Permutation.

Lemma has_in : forall set z, has set z = true <-> In z set.
Proof.
  intros set z. unfold has. rewrite existsb_exists. split.
  - intros (x & Hx & E). apply Z.eqb_eq in E. subst. auto.
  - intros H. exists z. split; auto. apply Z.eqb_refl.
Qed.

Lemma insert_in : forall z set x, In x (insert z set) <-> x = z \/ In x set.
Proof.
  intros z set x. unfold insert. destruct (has set z) eqn:E; cbn [In]; [|intuition].
  apply has_in in E. intuition (subst; auto).
Qed.

Lemma insert_nodup : forall z set, NoDup set -> NoDup (insert z set).
Proof.
  intros z set H. unfold insert. destruct (has set z) eqn:E; auto. constructor; auto.
  rewrite <- has_in. congruence.
Qed.

Lemma same_length : forall (a b : list Z), NoDup a -> NoDup b -> (forall z, In z a <-> In z b) ->
  length a = length b.
Proof.
  intros a b Ha Hb H. apply Nat.le_antisymm; apply NoDup_incl_length; auto; intros z; apply H.
Qed.

(** The least number that is not in the set. *)
Lemma next_color_ok : forall set, exists z, next_color set = Ok z /\ 0 <= z <= Z.of_nat (length set) /\
  ~ In z set /\ forall y, 0 <= y < z -> In y set.
Proof.
  intros set. unfold next_color.
  assert (K : forall fuel c, 0 <= c -> c + Z.of_nat fuel = Z.of_nat (S (length set)) ->
    (forall y, 0 <= y < c -> In y set) ->
    exists z, next_color_from fuel c set = Ok z /\ 0 <= z <= Z.of_nat (length set) /\
      ~ In z set /\ forall y, 0 <= y < z -> In y set).
  { induction fuel as [|fuel IH]; intros c Hc E Hy; cbn [next_color_from].
    - exfalso.
      assert (HL : (length (map Z.of_nat (seq 0 (S (length set)))) <= length set)%nat).
      { apply NoDup_incl_length.
        - apply FinFun.Injective_map_NoDup; [intros a b; lia|apply seq_NoDup].
        - intros z Hz. apply in_map_iff in Hz as (i & <- & Hi). apply in_seq in Hi. apply Hy. lia. }
      rewrite map_length, seq_length in HL. lia.
    - destruct (has set c) eqn:Eh.
      + apply has_in in Eh. apply IH; try lia. intros y Hy1.
        destruct (Z.eq_dec y c) as [->|]; auto. apply Hy. lia.
      + exists c. split; [reflexivity|]. split; [lia|]. split; auto. rewrite <- has_in. congruence. }
  apply (K (S (length set)) 0); try lia.
Qed.

Section Any.
  Context {C Ed It EIt Ids VM : Type} (m : mode) (H : MaxHeap C) (eqb : C -> C -> bool)
    (ids : Ids) (ids_next : Ids -> outcome (option C * Ids))
    (nb : C -> It) (nb_next : C -> It -> outcome (option C * It))
    (edges : C -> outcome EIt) (edges_next : EIt -> outcome (option Ed * EIt))
    (bound : outcome Z) (to_index : C -> outcome Z)
    (fresh : VM) (visit : VM -> C -> outcome (bool * VM)) (visited : VM -> C -> outcome bool)
    (dec : forall a b : C, {a = b} + {a <> b})
    (board : list C) (nbs : C -> list C) (ix : C -> nat) (VR : VM -> list C -> Prop)
    (HH : MaxHeapOK H) (Heqb : forall a b, eqb a b = true <-> a = b)
    (Hids : Drains ids_next ids board) (Hnd : NoDup board)
    (Hnb : forall c, In c board -> Drains (nb_next c) (nb c) (nbs c))
    (Hfew : forall c, In c board -> (length (nbs c) <= 8)%nat)
    (Hin : forall a b, In a board -> In b (nbs a) -> In b board)
    (Hsym : forall a b, In a board -> In b (nbs a) -> In a (nbs b))
    (Hdeg : forall c, In c board -> exists d, degree m edges edges_next c = Ok d)
    (Hbound : bound = Ok (Z.of_nat (length board)))
    (Hix : forall c, In c board -> to_index c = Ok (Z.of_nat (ix c)) /\ (ix c < length board)%nat)
    (Hinj : forall a b, In a board -> In b board -> ix a = ix b -> a = b)
    (Hlen : Z.of_nat (length board) < 2 ^ 64)
    (Hvisit : forall vm M c, VR vm M -> In c board ->
       exists b vm', visit vm c = Ok (b, vm') /\ (b = true <-> ~ In c M) /\ VR vm' (c :: M))
    (Hvisited : forall vm M c, VR vm M -> In c board ->
       exists b, visited vm c = Ok b /\ (b = true <-> In c M))
    (Hfresh : VR fresh []).

  Notation entry := ((Z * Z) * C)%type.
  Notation sat y := (fst (fst y)).
  Notation zlen l := (Z.of_nat (length l)).

  (** The colours next to [c]. *)
  Definition near (adj : list (list Z)) (c : C) : list Z :=
    match nth_error adj (ix c) with Some s => s | None => [] end.

  Lemma near_at : forall adj c, length adj = length board -> In c board ->
    nth_error adj (ix c) = Some (near adj c).
  Proof.
    clear - Hix. intros adj c HL Hc. unfold near. destruct (nth_error adj (ix c)) eqn:E; auto.
    apply nth_error_None in E. destruct (Hix c Hc). lia.
  Qed.

  Lemma near_set : forall adj c s, length adj = length board -> In c board ->
    near (list_set adj (ix c) s) c = s /\
    forall x, In x board -> x <> c -> near (list_set adj (ix c) s) x = near adj x.
  Proof.
    clear - Hix Hinj. intros adj c s HL Hc. destruct (Hix c Hc) as [_ Hi]. unfold near. split.
    - rewrite nth_error_list_set_eq by lia. reflexivity.
    - intros x Hx Hn. rewrite nth_error_list_set_neq; auto.
  Qed.

  Lemma push_in : forall x q y, In y (mh_push H x q) <-> y = x \/ In y q.
  Proof.
    clear - HH. intros x q y. destruct HH as [H1 _]. rewrite (H1 x q). cbn [In]. intuition.
  Qed.

  Lemma push_length : forall x q, length (mh_push H x q) = S (length q).
  Proof. clear - HH. intros x q. destruct HH as [H1 _]. rewrite (H1 x q). reflexivity. Qed.

  Lemma spread_ok : forall degs color l adj q, length degs = length board -> incl l board ->
    length adj = length board -> (forall x, In x board -> NoDup (near adj x)) ->
    exists adj' q', fold_outcome (spread H to_index degs color) l (adj, q) = Ok (adj', q') /\
      length adj' = length board /\ length q' = (length q + length l)%nat /\
      (forall x, In x board -> NoDup (near adj' x) /\
         forall z, In z (near adj' x) <-> In z (near adj x) \/ (z = color /\ In x l)) /\
      (forall y, In y q -> In y q') /\
      (forall y, In y q' -> In y q \/ (In (snd y) l /\ sat y <= zlen (near adj' (snd y)))) /\
      (forall x, In x l -> exists y, In y q' /\ snd y = x /\ sat y = zlen (near adj' x)).
  Proof.
    intros degs color l adj q HD. revert adj q. induction l as [|x0 l IH]; intros adj q Hl HA HN.
    { exists adj, q. cbn [fold_outcome]. split; [reflexivity|]. split; auto. split; [cbn; lia|].
      split; [|split; auto; split; [auto|intros x []]].
      intros x Hx. split; auto. intros z. cbn [In]. tauto. }
    assert (Hx0 : In x0 board) by (apply Hl; left; auto).
    assert (Hl' : incl l board) by (intros y Hy; apply Hl; right; auto).
    destruct (Hix x0 Hx0) as [I1 I2].
    set (s1 := insert color (near adj x0)).
    set (adj1 := list_set adj (ix x0) s1).
    assert (HD1 : exists d, nth_error degs (ix x0) = Some d).
    { destruct (nth_error degs (ix x0)) eqn:E; eauto. apply nth_error_None in E. lia. }
    destruct HD1 as (d & Hd).
    set (q1 := mh_push H ((zlen s1, d), x0) q).
    assert (E1 : spread H to_index degs color (adj, q) x0 = Ok (adj1, q1)).
    { unfold spread. rewrite I1. cbn [bind fst snd]. rewrite Nat2Z.id, (near_at adj x0 HA Hx0).
      unfold vec_at. rewrite Nat2Z.id, Hd. reflexivity. }
    destruct (near_set adj x0 s1 HA Hx0) as [N1 N2]. fold adj1 in N1, N2.
    assert (HA1 : length adj1 = length board) by (unfold adj1; rewrite list_set_length; auto).
    assert (HN1 : forall x, In x board -> NoDup (near adj1 x)).
    { intros x Hx. destruct (dec x x0) as [->|Hne]; [|rewrite N2; auto].
      rewrite N1. apply insert_nodup; auto. }
    destruct (IH adj1 q1 Hl' HA1 HN1) as (adj' & q' & F1 & F2 & F3 & F4 & F5 & F6 & F7).
    assert (HS : forall x, In x board -> forall z, In z (near adj1 x) <-> In z (near adj x) \/ (z = color /\ x = x0)).
    { intros x Hx z. destruct (dec x x0) as [->|Hne].
      - rewrite N1. unfold s1. rewrite insert_in. tauto.
      - rewrite N2 by auto. tauto. }
    assert (HZ : zlen s1 = zlen (near adj' x0)).
    { f_equal. rewrite <- N1. apply same_length; auto; [apply F4; auto|].
      intros z. rewrite (proj2 (F4 x0 Hx0) z). split; [auto|]. intros [K|[-> _]]; auto.
      apply HS; auto. }
    exists adj', q'. cbn [fold_outcome]. rewrite E1. cbn [bind]. split; [exact F1|]. split; auto.
    split; [rewrite F3; unfold q1; rewrite push_length; cbn [length]; lia|].
    split; [|split; [|split]].
    - intros x Hx. split; [apply F4; auto|]. intros z. rewrite (proj2 (F4 x Hx) z), (HS x Hx).
      cbn [In]. intuition.
    - intros y Hy. apply F5. unfold q1. apply push_in. auto.
    - intros y Hy. destruct (F6 y Hy) as [K|[K1 K2]].
      + unfold q1 in K. apply push_in in K as [->|K]; auto. right. cbn [fst snd]. split; [left; auto|]. lia.
      + right. split; [right; auto|auto].
    - intros x [<-|Hx]; auto. exists ((zlen s1, d), x0). split; [|split; auto].
      apply F5. unfold q1. apply push_in. auto.
  Qed.

  (** ** What holds in between *)

  Record Inv (done : list C) (st : Colors (C := C) (VM := VM)) : Prop := {
    v_in : incl done board;
    v_nd : NoDup done;
    v_seen : VR (cl_seen st) done;
    v_done : forall c, In c done <-> cl_colors st c <> None;
    v_adj : length (cl_adj st) = length board;
    v_near : forall x, In x board -> NoDup (near (cl_adj st) x) /\
      forall z, In z (near (cl_adj st) x) <-> exists c, In c done /\ In x (nbs c) /\ cl_colors st c = Some z;
    v_proper : forall a b z, In b (nbs a) -> a <> b ->
      cl_colors st a = Some z -> cl_colors st b = Some z -> False;
    v_first : forall c z, cl_colors st c = Some z -> 0 <= z <= cl_max st /\
      forall y, 0 <= y < z -> exists b, In b (nbs c) /\ cl_colors st b = Some y;
    v_max : 0 <= cl_max st <= 8 /\
      ((done = [] /\ cl_max st = 0) \/ exists c, cl_colors st c = Some (cl_max st));
    v_queue : forall y, In y (cl_queue st) -> In (snd y) board /\ sat y <= zlen (near (cl_adj st) (snd y));
    v_wait : forall x, In x board -> ~ In x done -> exists y, In y (cl_queue st) /\ snd y = x /\
      sat y = zlen (near (cl_adj st) x)
  }.

  Definition weight (done : list C) (st : Colors (C := C) (VM := VM)) : nat :=
    (9 * (length board - length done) + length (cl_queue st))%nat.

  Context (degs : list Z) (Hdegs : length degs = length board).
  Notation round := (color_round H eqb nb nb_next to_index visit visited degs).

  (** The popped entry is above all others. *)
  Definition Top (st : Colors (C := C) (VM := VM)) (v : C) : Prop :=
    exists p, In (p, v) (cl_queue st) /\ forall y, In y (cl_queue st) -> sat y <= fst p.

  Lemma round_ok : forall done st, Inv done st ->
    (round st = Ok (inr st) /\ forall c, In c board -> In c done) \/
    exists st' done', round st = Ok (inl st') /\ Inv done' st' /\ (weight done' st' < weight done st)%nat /\
      ((done' = done /\ cl_colors st' = cl_colors st) \/
       exists v z, done' = v :: done /\ ~ In v done /\ In v board /\ Top st v /\
         cl_colors st' v = Some z /\ (forall c, c <> v -> cl_colors st' c = cl_colors st c) /\
         ~ In z (near (cl_adj st) v) /\ 0 <= z /\ forall y, 0 <= y < z -> In y (near (cl_adj st) v)).
  Proof.
    intros done st I. unfold color_round. destruct HH as [_ HP]. specialize (HP (cl_queue st)).
    destruct (mh_pop H (cl_queue st)) as [[[p v] q]|] eqn:Epop.
    2:{ left. split; [reflexivity|]. intros c Hc. destruct (in_dec dec c done) as [|Hn]; auto.
        destruct (v_wait _ _ I c Hc Hn) as (y & Hy & _). rewrite HP in Hy. destruct Hy. }
    right. destruct HP as [HP1 HP2]. pose proof (Permutation_length HP1) as HQL. cbn [length] in HQL.
    assert (HPi : forall y, In y (cl_queue st) <-> y = (p, v) \/ In y q).
    { intros y. rewrite HP1. cbn [In]. intuition. }
    destruct I. destruct (v_queue0 (p, v)) as [Hv Hpv]; [apply HPi; auto|]. cbn [fst snd] in Hv, Hpv.
    destruct (Hvisited _ _ _ v_seen0 Hv) as (b & E1 & Hb). rewrite E1. cbn [bind]. destruct b.
    { assert (Hd : In v done) by (apply Hb; auto).
      eexists _, done. split; [reflexivity|]. split; [|split; [unfold weight; cbn [cl_queue]; lia|left; auto]].
      constructor; cbn [cl_queue cl_adj cl_seen cl_colors cl_max]; auto.
      - intros y Hy. apply v_queue0. apply HPi. auto.
      - intros x Hx Hn. destruct (v_wait0 x Hx Hn) as (y & Y1 & Y2 & Y3). apply HPi in Y1 as [->|Y1]; [|eauto].
        cbn [snd] in Y2. subst x. tauto. }
    assert (Hnv : ~ In v done) by (intros K; apply Hb in K; discriminate).
    destruct (Hvisit _ _ _ v_seen0 Hv) as (b & vm & E2 & _ & HV). rewrite E2. cbn [bind].
    destruct (Hix v Hv) as [I1 I2]. rewrite I1. cbn [bind]. unfold vec_at. rewrite Nat2Z.id.
    rewrite (near_at _ v v_adj0 Hv). cbn [bind].
    destruct (next_color_ok (near (cl_adj st) v)) as (z & E3 & Z1 & Z2 & Z3). rewrite E3. cbn [bind].
    rewrite (for_each_exact _ _ _ _ _ _ _ _ (Hnb v Hv)).
    2:{ pose proof (Hfew v Hv). change (2 ^ 72) with 4722366482869645213696. lia. }
    destruct (spread_ok degs z (nbs v) (cl_adj st) q Hdegs) as (adj' & q' & F1 & F2 & F3 & F4 & F5 & F6 & F7); auto.
    { intros x Hx. apply Hin with (a := v); auto. }
    { intros x Hx. apply v_near0; auto. }
    rewrite F1. cbn [bind].
    assert (MI : map_insert eqb (cl_colors st) v z v = Some z).
    { unfold map_insert. rewrite (proj2 (Heqb v v)); auto. }
    assert (MO : forall c, c <> v -> map_insert eqb (cl_colors st) v z c = cl_colors st c).
    { intros c Hc. unfold map_insert. destruct (eqb c v) eqn:E; auto. apply Heqb in E. tauto. }
    assert (Hold : forall c y, cl_colors st c = Some y -> In c done /\ c <> v).
    { intros c y Hc. assert (K : In c done) by (apply v_done0; congruence). split; auto. intros ->. tauto. }
    assert (HVN : forall c y, In c done -> In v (nbs c) -> cl_colors st c = Some y -> y <> z).
    { intros c y Hc Hvc Hy ->. apply Z2. apply v_near0; auto. exists c. auto. }
    eexists _, (v :: done). split; [reflexivity|]. split; [|split].
    - constructor; cbn [cl_queue cl_adj cl_seen cl_colors cl_max].
      + intros x [<-|Hx]; auto.
      + constructor; auto.
      + auto.
      + intros c. cbn [In]. destruct (dec v c) as [<-|Hne]; [rewrite MI; intuition congruence|].
        rewrite MO by auto. rewrite v_done0. tauto.
      + auto.
      + intros x Hx. split; [apply F4; auto|]. intros y. rewrite (proj2 (F4 x Hx) y), (proj2 (v_near0 x Hx) y). split.
        * intros [(c & K1 & K2 & K3)|[-> K]].
          -- exists c. split; [right; auto|]. split; auto. rewrite MO; auto. intros ->. tauto.
          -- exists v. split; [left; auto|]. auto.
        * intros (c & [<-|K1] & K2 & K3).
          -- right. split; auto. congruence.
          -- left. exists c. rewrite MO in K3 by (intros ->; tauto). auto.
      + intros a c y Hac Hne Ha Hc. destruct (dec a v) as [->|Hav].
        * rewrite MI in Ha. injection Ha as <-. rewrite MO in Hc by auto.
          destruct (Hold c z Hc) as [Hcd _]. eapply HVN; eauto.
        * rewrite MO in Ha by auto. destruct (Hold a y Ha) as [Had _]. destruct (dec c v) as [->|Hcv].
          -- rewrite MI in Hc. injection Hc as <-. eapply HVN; eauto.
          -- rewrite MO in Hc by auto. eapply v_proper0; eauto.
      + intros c y Hc. destruct (dec c v) as [->|Hcv].
        * rewrite MI in Hc. injection Hc as <-. split; [lia|]. intros y Hy. apply Z3 in Hy.
          apply v_near0 in Hy; auto. destruct Hy as (b' & K1 & K2 & K3). exists b'. split; auto.
          rewrite MO; auto. intros ->. tauto.
        * rewrite MO in Hc by auto. destruct (v_first0 c y Hc) as [K1 K2]. split; [lia|].
          intros y' Hy'. destruct (K2 y' Hy') as (b' & K3 & K4). exists b'. split; auto.
          rewrite MO; auto. apply (Hold b' y' K4).
      + destruct v_max0 as [K1 K2]. split.
        * assert (K3 : (length (near (cl_adj st) v) <= 8)%nat).
          { destruct (v_near0 v Hv) as [K3 K4].
            transitivity (length (map (fun c => match cl_colors st c with Some z => z | None => 0 end) (nbs v))).
            - apply NoDup_incl_length; auto. intros y Hy. apply K4 in Hy as (c & C1 & C2 & C3).
              apply in_map_iff. exists c. rewrite C3. split; auto.
            - rewrite map_length. auto. }
          lia.
        * right. destruct (Z.max_spec (cl_max st) z) as [[M1 ->]|[M1 ->]]; [exists v; auto|].
          destruct K2 as [[K2 K3]|(c & Kc)].
          -- exists v. rewrite MI. f_equal. lia.
          -- exists c. rewrite MO; auto. apply (Hold c _ Kc).
      + intros y Hy. destruct (F6 y Hy) as [K|[K1 K2]].
        * destruct (v_queue0 y) as [Q1 Q2]; [apply HPi; auto|]. split; auto.
          etransitivity; [exact Q2|]. apply inj_le. apply NoDup_incl_length; [apply v_near0; auto|].
          intros w Hw. apply F4; auto.
        * split; auto. apply Hin with (a := v); auto.
      + intros x Hx Hn. destruct (in_dec dec x (nbs v)) as [Hxv|Hxv]; [apply F7; auto|].
        destruct (v_wait0 x Hx) as (y & Y1 & Y2 & Y3); [intros K; apply Hn; right; auto|].
        exists y. split; [|split; auto].
        * apply HPi in Y1 as [->|Y1]; [|apply F5; auto]. cbn [snd] in Y2. subst x. destruct Hn. left. auto.
        * rewrite Y3. f_equal. apply same_length; [apply v_near0; auto|apply F4; auto|].
          intros w. rewrite (proj2 (F4 x Hx) w). tauto.
    - unfold weight. cbn [cl_queue length].
      assert (HL : (length (v :: done) <= length board)%nat).
      { apply NoDup_incl_length; [constructor; auto|]. intros x [<-|Hx]; auto. }
      cbn [length] in HL. pose proof (Hfew v Hv). lia.
    - right. exists v, z. split; [reflexivity|]. split; auto. split; auto. split.
      + exists p. split; [apply HPi; auto|]. intros y Hy. specialize (HP2 y Hy). destruct HP2 as [K|[K _]]; cbn [fst] in K; lia.
      + cbn [cl_colors]. split; auto. split; auto. split; auto. split; [lia|auto].
  Qed.

  Section Along.
    Context (Q : list C -> (C -> option Z) -> Prop)
      (HQ : forall done st v z col, Inv done st -> Q done (cl_colors st) -> ~ In v done -> In v board ->
         Top st v -> col v = Some z -> (forall c, c <> v -> col c = cl_colors st c) ->
         ~ In z (near (cl_adj st) v) -> 0 <= z -> (forall y, 0 <= y < z -> In y (near (cl_adj st) v)) ->
         Q (v :: done) col).

    Lemma rounds_ok : forall w done st, (weight done st <= w)%nat -> Inv done st -> Q done (cl_colors st) ->
      exists n st' done', Rounds round n st (Ok st') /\ (n <= w)%nat /\ Inv done' st' /\ Q done' (cl_colors st') /\
        forall c, In c board -> In c done'.
    Proof.
      induction w as [|w IH]; intros done st Hw I HQ0;
        (destruct (round_ok done st I) as [[E Hall]|(st' & done' & E & I' & W & K)];
         [exists O, st, done; split; [constructor; auto|]; split; [lia|auto]|]).
      - lia.
      - assert (HQ' : Q done' (cl_colors st')).
        { destruct K as [[-> ->]|(v & z & -> & K1 & K2 & K3 & K4 & K5 & K6 & K7 & K8)]; auto. eapply HQ; eauto. }
        destruct (IH done' st') as (n & st2 & done2 & R1 & R2 & R3); auto; [lia|].
        exists (S n), st2, done2. split; [econstructor; eauto|]. split; [lia|auto].
    Qed.
  End Along.

  (** ** Two colours *)

  Section Two.
    Context (f : C -> bool)
      (Hf : forall a b, In a board -> In b (nbs a) -> a <> b -> f a <> f b)
      (Hconn : forall start L, In start board -> In start L -> incl L board ->
         (forall a b, In a L -> In b (nbs a) -> In b L) -> forall c, In c board -> In c L).

    Definition Two (done : list C) (col : C -> option Z) : Prop :=
      exists p, forall c, In c done -> col c = Some (if xorb p (f c) then 1 else 0).

    Lemma two_step : forall done st v z col, Inv done st -> Two done (cl_colors st) -> ~ In v done -> In v board ->
      Top st v -> col v = Some z -> (forall c, c <> v -> col c = cl_colors st c) ->
      ~ In z (near (cl_adj st) v) -> 0 <= z -> (forall y, 0 <= y < z -> In y (near (cl_adj st) v)) ->
      Two (v :: done) col.
    Proof.
      intros done st v z col I (p & Hp) Hnv Hv (t & T1 & T2) Hz Hoth Hfree Hz0 Hleast. destruct I.
      destruct done as [|c0 rest].
      { exists (f v). intros c [<-|[]]. rewrite Hz, xorb_nilpotent. f_equal.
        destruct (Z.eq_dec z 0); auto. exfalso. assert (K : In 0 (near (cl_adj st) v)) by (apply Hleast; lia).
        apply v_near0 in K; auto. destruct K as (c & [] & _). }
      set (done := c0 :: rest) in *.
      assert (Hedge : exists c b, In c done /\ In b (nbs c) /\ ~ In b done).
      { destruct (Exists_dec (fun c => Exists (fun b => ~ In b done) (nbs c)) done) as [K|K].
        - intros c. apply Exists_dec. intros b. destruct (in_dec dec b done); [right|left]; auto.
        - apply Exists_exists in K as (c & K1 & K2). apply Exists_exists in K2 as (b & K2 & K3). eauto.
        - exfalso. apply Hnv. apply (Hconn c0 done); auto; try (apply v_in0); try (left; auto; fail).
          intros a b Ha Hb. destruct (in_dec dec b done) as [|Hn]; auto. destruct K.
          apply Exists_exists. exists a. split; auto. apply Exists_exists. exists b. auto. }
      destruct Hedge as (c & b & B1 & B2 & B3).
      assert (Hb : In b board) by (apply Hin with (a := c); auto).
      assert (B4 : In (if xorb p (f c) then 1 else 0) (near (cl_adj st) b)).
      { apply v_near0; auto. exists c. auto. }
      destruct (v_wait0 b Hb B3) as (y & Y1 & Y2 & Y3). specialize (T2 y Y1).
      destruct (v_queue0 (t, v) T1) as [_ T3]. cbn [fst snd] in T3.
      assert (B5 : (0 < length (near (cl_adj st) b))%nat) by (destruct (near (cl_adj st) b); [destruct B4|cbn; lia]).
      assert (Hk : forall w, In w (near (cl_adj st) v) -> w = if xorb p (negb (f v)) then 1 else 0).
      { intros w Hw. apply v_near0 in Hw; auto. destruct Hw as (a & W1 & W2 & W3). rewrite (Hp a W1) in W3.
        injection W3 as <-. assert (W4 : f a <> f v).
        { apply Hf; auto. intros ->. tauto. }
        destruct (f a), (f v), p; cbn [xorb negb]; auto; congruence. }
      assert (Hne : In (if xorb p (negb (f v)) then 1 else 0) (near (cl_adj st) v)).
      { destruct (near (cl_adj st) v) as [|w l] eqn:E; [cbn [length] in T3; lia|].
        rewrite <- (Hk w) by (left; auto). left. auto. }
      exists p. intros a [<-|Ha].
      2:{ rewrite Hoth; auto. intros ->. tauto. }
      rewrite Hz. f_equal.
      replace (xorb p (f v)) with (negb (xorb p (negb (f v)))) by (destruct p, (f v); reflexivity).
      destruct (xorb p (negb (f v))); cbn [negb].
      - destruct (Z.eq_dec z 0); auto. specialize (Hk 0). assert (0 = 1); [|lia]. apply Hk, Hleast. lia.
      - destruct (Z.eq_dec z 1); auto. destruct (Z.eq_dec z 0) as [->|]; [tauto|].
        assert (1 = 0); [|lia]. apply Hk, Hleast. lia.
    Qed.
  End Two.
End Any.

(** ** The whole run *)

Section Whole.
  Context {C Ed It EIt Ids VM : Type} (m : mode) (H : MaxHeap C) (eqb : C -> C -> bool)
    (ids : Ids) (ids_next : Ids -> outcome (option C * Ids))
    (nb : C -> It) (nb_next : C -> It -> outcome (option C * It))
    (edges : C -> outcome EIt) (edges_next : EIt -> outcome (option Ed * EIt))
    (bound : outcome Z) (to_index : C -> outcome Z)
    (fresh : VM) (visit : VM -> C -> outcome (bool * VM)) (visited : VM -> C -> outcome bool)
    (dec : forall a b : C, {a = b} + {a <> b})
    (board : list C) (nbs : C -> list C) (ix : C -> nat) (VR : VM -> list C -> Prop)
    (HH : MaxHeapOK H) (Heqb : forall a b, eqb a b = true <-> a = b)
    (Hids : Drains ids_next ids board) (Hnd : NoDup board)
    (Hnb : forall c, In c board -> Drains (nb_next c) (nb c) (nbs c))
    (Hfew : forall c, In c board -> (length (nbs c) <= 8)%nat)
    (Hin : forall a b, In a board -> In b (nbs a) -> In b board)
    (Hsym : forall a b, In a board -> In b (nbs a) -> In a (nbs b))
    (Hdeg : forall c, In c board -> exists d, degree m edges edges_next c = Ok d)
    (Hbound : bound = Ok (Z.of_nat (length board)))
    (Hix : forall c, In c board -> to_index c = Ok (Z.of_nat (ix c)) /\ (ix c < length board)%nat)
    (Hinj : forall a b, In a board -> In b board -> ix a = ix b -> a = b)
    (Hlen : Z.of_nat (length board) < 2 ^ 64)
    (Hvisit : forall vm M c, VR vm M -> In c board ->
       exists b vm', visit vm c = Ok (b, vm') /\ (b = true <-> ~ In c M) /\ VR vm' (c :: M))
    (Hvisited : forall vm M c, VR vm M -> In c board ->
       exists b, visited vm c = Ok b /\ (b = true <-> In c M))
    (Hfresh : VR fresh []).
  Notation run := (dsatur_coloring m H eqb ids ids_next nb nb_next edges edges_next bound to_index fresh visit visited).

  Lemma start_ok : forall l degs q, incl l board -> length degs = length board ->
    (forall y, In y q -> In (snd y) board /\ fst (fst y) = 0) ->
    exists degs' q', fold_outcome (fun st v =>
      let! d := degree m edges edges_next v in
      let! i := to_index v in
      let! _ := vec_at (fst st) i in
      Ok (list_set (fst st) (Z.to_nat i) d, mh_push H ((0, d), v) (snd st))) l (degs, q) = Ok (degs', q') /\
      length degs' = length board /\ length q' = (length q + length l)%nat /\
      (forall y, In y q' -> In (snd y) board /\ fst (fst y) = 0) /\
      (forall y, In y q -> In y q') /\
      (forall x, In x l -> exists y, In y q' /\ snd y = x /\ fst (fst y) = 0).
  Proof.
    induction l as [|v l IH]; intros degs q Hl HD HQ.
    { exists degs, q. cbn [fold_outcome length]. split; auto. split; auto. split; [lia|]. split; auto. split; auto.
      intros x []. }
    assert (Hv : In v board) by (apply Hl; left; auto).
    destruct (Hdeg v Hv) as (d & Ed1). destruct (Hix v Hv) as [I1 I2].
    assert (PI : forall y, In y (mh_push H ((0, d), v) q) <-> y = ((0, d), v) \/ In y q) by (intros; apply push_in; auto).
    destruct (IH (list_set degs (ix v) d) (mh_push H ((0, d), v) q)) as (degs' & q' & F1 & F2 & F3 & F4 & F5 & F6).
    { intros x Hx. apply Hl. right. auto. }
    { rewrite list_set_length. auto. }
    { intros y Hy. apply PI in Hy as [->|Hy]; auto. }
    exists degs', q'. cbn [fold_outcome]. rewrite Ed1. cbn [bind]. rewrite I1. cbn [bind fst snd].
    unfold vec_at at 1. rewrite Nat2Z.id.
    destruct (nth_error degs (ix v)) eqn:En; [|apply nth_error_None in En; lia]. cbn [bind].
    split; [exact F1|]. split; auto. split; [rewrite F3, push_length by auto; cbn [length]; lia|].
    split; auto. split.
    - intros y Hy. apply F5, PI. auto.
    - intros x [<-|Hx]; auto. exists ((0, d), v). split; [apply F5, PI; auto|auto].
  Qed.

  Lemma near_fresh : forall n x, near ix (repeat [] n) x = [].
  Proof.
    intros n x. unfold near. destruct (nth_error (repeat [] n) (ix x)) eqn:E; auto.
    apply nth_error_In, repeat_spec in E. auto.
  Qed.

  Lemma run_ok : forall Q : list C -> (C -> option Z) -> Prop, Q [] (fun _ => None) ->
    (forall done (st : Colors) v z col, Inv board nbs ix VR done st -> Q done (cl_colors st) -> ~ In v done ->
         In v board -> Top st v -> col v = Some z -> (forall c, c <> v -> col c = cl_colors st c) ->
         ~ In z (near ix (cl_adj st) v) -> 0 <= z -> (forall y, 0 <= y < z -> In y (near ix (cl_adj st) v)) ->
         Q (v :: done) col) ->
    exists st done, run = Ok (cl_colors st, cl_max st + 1) /\ Inv board nbs ix VR done st /\
      Q done (cl_colors st) /\ forall c, In c board <-> In c done.
  Proof.
    intros Q Q0 HQ. unfold dsatur_coloring. rewrite Hbound. cbn [bind]. rewrite Nat2Z.id.
    rewrite (for_each_exact _ _ _ _ _ _ _ _ Hids)
      by (change (2 ^ 64) with 18446744073709551616 in Hlen; change (2 ^ 72) with 4722366482869645213696; lia).
    destruct (start_ok board (repeat 0 (length board)) []) as (degs & q & F1 & F2 & F3 & F4 & _ & F6).
    { apply incl_refl. }
    { apply repeat_length. }
    { intros y []. }
    rewrite F1. cbn [bind].
    set (st0 := mkColors q (repeat [] (length board)) fresh (fun _ => None) 0).
    assert (I0 : Inv board nbs ix VR [] st0).
    { constructor; cbn [st0 cl_queue cl_adj cl_seen cl_colors cl_max].
      - intros x [].
      - constructor.
      - auto.
      - intros c. split; [intros []|congruence].
      - apply repeat_length.
      - intros x Hx. rewrite near_fresh. split; [constructor|]. intros z. split; [intros []|intros (c & [] & _)].
      - intros; congruence.
      - intros; congruence.
      - split; [lia|]. left. auto.
      - intros y Hy. destruct (F4 y Hy) as [Y1 Y2]. rewrite near_fresh. split; auto. cbn [length]. lia.
      - intros x Hx _. rewrite near_fresh. cbn [length]. apply F6. auto. }
    destruct (rounds_ok m H eqb nb nb_next edges edges_next to_index fresh visit visited dec board nbs ix VR HH Heqb Hnb Hfew
      Hin Hsym Hdeg Hix Hinj Hvisit Hvisited degs F2 Q HQ (weight board [] st0) [] st0) as (n & st & done & R1 & R2 & R3 & R4 & R5); auto.
    exists st, done.
    rewrite (loop_rounds _ _ _ _ R1).
    2:{ unfold weight in R2. cbn [length] in R2. cbn [st0 cl_queue] in R2. rewrite F3 in R2. cbn [length] in R2.
        change (2 ^ 64) with 18446744073709551616 in Hlen; change (2 ^ 72) with 4722366482869645213696. lia. }
    cbn [bind]. destruct (v_max _ _ _ _ _ _ R3) as [M1 _].
    rewrite usize_add_ok by (rewrite ?USIZE_val; lia). cbn [bind].
    split; auto. split; auto. split; auto. intros c. split; auto. apply (v_in _ _ _ _ _ _ R3).
  Qed.

  (** The colours, the number of them, and two where two are enough. *)
  Lemma coloring_ok : exists r color, run = Ok r /\
    (forall c, In c board -> fst r c = Some (color c)) /\
    (forall c, ~ In c board -> fst r c = None) /\
    Proper_colours (fun a b => In b (nbs a)) board color (snd r) /\
    First_fit (fun a b => In b (nbs a)) board color /\
    (board <> [] -> Last_used board color (snd r)) /\
    1 <= snd r <= 9 /\ (board = [] -> snd r = 1) /\
    ((forall start L, In start board -> In start L -> incl L board ->
         (forall a b, In a L -> In b (nbs a) -> In b L) -> forall c, In c board -> In c L) ->
     forall f : C -> bool, (forall a b, In a board -> In b (nbs a) -> a <> b -> f a <> f b) -> snd r <= 2).
  Proof.
    destruct (run_ok (fun _ _ => True)) as (st & done & E & I & _ & HD); auto.
    set (color := fun c => match cl_colors st c with Some z => z | None => 0 end).
    exists (cl_colors st, cl_max st + 1), color. cbn [fst snd].
    assert (HC : forall c, In c board -> cl_colors st c = Some (color c)).
    { intros c Hc. apply HD, (v_done _ _ _ _ _ _ I) in Hc. unfold color. destruct (cl_colors st c); congruence. }
    assert (HO : forall c z, cl_colors st c = Some z -> In c board).
    { intros c z Hc. apply HD, (v_done _ _ _ _ _ _ I). congruence. }
    split; [exact E|]. split; auto. split.
    { intros c Hc. destruct (cl_colors st c) eqn:K; auto. destruct Hc. eapply HO; eauto. }
    split; [split|].
    { intros c Hc. destruct (v_first _ _ _ _ _ _ I c (color c) (HC c Hc)). lia. }
    { intros a b Ha Hb Hne Hab K. eapply (v_proper _ _ _ _ _ _ I a b); eauto. rewrite K. auto. }
    split.
    { intros c z Hc Hz. destruct (v_first _ _ _ _ _ _ I c (color c) (HC c Hc)) as [_ K].
      destruct (K z Hz) as (b & K1 & K2). exists b. split; [eapply HO; eauto|]. split; auto. unfold color. rewrite K2. auto. }
    destruct (v_max _ _ _ _ _ _ I) as [M1 M2]. split; [|split; [lia|split]].
    { intros Hne. destruct M2 as [[-> M2]|(c & Hc)].
      - destruct board as [|c l]; [congruence|]. destruct (proj1 (HD c)). left. auto.
      - exists c. split; [eapply HO; eauto|]. unfold color. rewrite Hc. lia. }
    { intros K. destruct M2 as [[_ ->]|(c & Hc)]; auto. apply HO in Hc. rewrite K in Hc. destruct Hc. }
    intros Hconn f Hf.
    destruct (run_ok (Two f)) as (st2 & done2 & E2 & I2 & (p & Hp) & HD2).
    { exists false. intros c []. }
    { intros dn st0 v0 z0 col0. eapply two_step with (degs := repeat 0 (length board)); eauto using repeat_length. }
    rewrite E in E2. injection E2 as E2 E3. rewrite <- E2 in Hp.
    destruct M2 as [[_ M2]|(c & Hc)]; [lia|]. specialize (Hp c). rewrite Hc in Hp.
    assert (K : In c done2) by (apply HD2; eapply HO; eauto). specialize (Hp K). injection Hp as ->.
    destruct (xorb p (f c)); lia.
  Qed.
End Whole.
