(** * SccProofs: what [kosaraju_scc] gives on a graph whose [neighbors_directed] ignores its
    direction. *)

From Verif Require Import Machine Traverse Clients Basics TraverseProofs Spec11 AnySearch PostAny Scc.
From Coq Require Import ZifyBool ZifyNat Permutation.

Lemma push_all_ok : forall It X (next : It -> outcome (option X * It)) it l it1 it2 v,
  Consumed next it l it1 -> next it1 = Ok (None, it2) -> Z.of_nat (length l) + 1 < 2 ^ 72 ->
  push_all next it v = Ok (v ++ l, it2).
Proof.
  intros It X next it l it1 it2 v HC HN HL. unfold push_all.
  eapply loop_rounds with (n := length l); [|lia]. clear HL. revert v.
  induction HC as [it|it x it' l it3 H HC IH]; intros v.
  - apply R_done. cbn [fst snd]. rewrite HN. cbn [bind]. rewrite app_nil_r. reflexivity.
  - cbn [length]. eapply R_more.
    + cbn [fst snd]. rewrite H. cbn [bind]. reflexivity.
    + replace (v ++ x :: l) with ((v ++ [x]) ++ l) by (rewrite <- app_assoc; reflexivity). auto.
Qed.

Lemma reached_trans : forall C It (nb : C -> It) next board a n b k c,
  Reached nb next board a n b -> Reached nb next board b k c ->
  Reached nb next board a (k + n) c.
Proof.
  intros C It nb next board a n b k c H1 H2. induction H2 as [|k b' c l H2 IH H3 H4 H5]; auto.
  cbn [Nat.add]. eapply reached_step; eauto.
Qed.

Section Any.
  Context {C It Ids VM : Type} (ids : Ids) (ids_next : Ids -> outcome (option C * Ids))
    (nb : C -> It) (nb_next : C -> It -> outcome (option C * It))
    (visit : VM -> C -> outcome (bool * VM)) (visited : VM -> C -> outcome bool)
    (fresh : VM) (reset : VM -> VM)
    (dec : forall a b : C, {a = b} + {a <> b})
    (board : list C) (raw : C -> list C) (VR : VM -> list C -> Prop)
    (Hids : Drains ids_next ids board) (Hnd : NoDup board)
    (Hnb : forall c, In c board -> Drains (nb_next c) (nb c) (raw c))
    (Hfew : forall c, In c board -> (length (raw c) <= 8)%nat)
    (Hoff : forall c x, In c board -> In x (raw c) -> ~ In x board -> forall vm,
       visit vm x = Ok (false, vm) /\ visited vm x = Ok false)
    (Hvisit : forall vm M c, VR vm M -> In c board ->
       exists b vm', visit vm c = Ok (b, vm') /\ (b = true <-> ~ In c M) /\ VR vm' (c :: M))
    (Hvisited : forall vm M c, VR vm M -> In c board ->
       exists b, visited vm c = Ok b /\ (b = true <-> In c M))
    (VRext : forall vm M M', VR vm M -> (forall c, In c M <-> In c M') -> VR vm M')
    (Hfresh : VR fresh []) (Hreset : forall vm M, VR vm M -> VR (reset vm) [])
    (Hlen : Z.of_nat (length board) <= 2 ^ 63).

  Notation leads a c := (exists n, Reached nb nb_next board a n c).
  Notation closed M := (forall c x, In c M -> In x (raw c) -> In x board -> In x M).

  Lemma leads_trans : forall a b c, leads a b -> leads b c -> leads a c.
  Proof. intros a b c (n & H1) (k & H2). exists (k + n)%nat. eapply reached_trans; eauto. Qed.
  Lemma leads_refl : forall a, leads a a.
  Proof. intros a. exists 0%nat. constructor. Qed.
  Lemma leads_in : forall a b, In a board -> leads a b -> In b board.
  Proof. intros a b Ha (n & H). inversion H; subst; auto. Qed.
  Lemma leads_step : forall a b, In a board -> In b (raw a) -> In b board -> leads a b.
  Proof using Hnb.
    intros a b Ha Hb Hbb. exists 1%nat. eapply reached_step; [constructor|eauto|auto|auto].
  Qed.
  Lemma closed_leads : forall M, incl M board -> closed M -> forall a b, In a M -> leads a b -> In b M.
  Proof using Hnb.
    intros M HI HC a b Ha (n & H). induction H as [|n b c l H IH HD Hc Hcb]; auto.
    apply (HC b c IH); auto.
    rewrite (Drains_det _ _ _ _ (Hnb b (HI b IH)) HD). auto.
  Qed.

  (** ** The first phase *)

  Definition Crosses (l : list C) : Prop :=
    forall p z q c x, l = p ++ z :: q -> In c (p ++ [z]) -> In x (raw c) -> In x board ->
      In x q -> leads x z.

  Lemma crosses_app : forall l l', NoDup (l ++ l') -> closed l -> Crosses l -> Crosses l' ->
    Crosses (l ++ l').
  Proof.
    intros l l' HN HC H1 H2 p z q c x El Hc Hx Hxb Hq.
    destruct (in_dec dec z l) as [Hz|Hz].
    - (* z in l *)
      assert (Hq' : exists q0, l = p ++ z :: q0 /\ q = q0 ++ l').
      { clear - El HN Hz. revert l El HN Hz. induction p as [|a p IH]; intros l El HN Hz.
        - destruct l as [|y l]; [destruct Hz|]. cbn [app] in *. injection El as -> <-. eauto.
        - destruct l as [|y l]; [destruct Hz|]. cbn [app] in *. injection El as -> El.
          inversion HN as [|? ? N1 N2]; subst. destruct Hz as [->|Hz].
          + exfalso. apply N1. rewrite El. apply in_or_app. right. left; auto.
          + destruct (IH l El N2 Hz) as (q0 & -> & ->). eauto. }
      destruct Hq' as (q0 & El0 & Eq0).
      assert (Hcl : In c l).
      { rewrite El0. apply in_app_or in Hc. apply in_or_app. destruct Hc as [Hc|[<-|[]]]; auto.
        right; left; auto. }
      pose proof (HC c x Hcl Hx Hxb) as Hxl. apply (H1 p z q0 c x); auto.
      rewrite Eq0 in Hq. apply in_app_or in Hq. destruct Hq as [Hq|Hq]; auto.
      exfalso. eapply nodup_apart; eauto.
    - assert (Hp : exists p0, p = l ++ p0 /\ l' = p0 ++ z :: q).
      { clear - El Hz. revert l El Hz. induction p as [|a p IH]; intros l El Hz.
        - destruct l as [|y l]; [exists []; split; [reflexivity|exact El]|].
          cbn [app] in El. injection El as -> _. exfalso. apply Hz. left; auto.
        - destruct l as [|y l]; [exists (a :: p); split; [reflexivity|exact El]|].
          cbn [app] in El. injection El as -> El.
          destruct (IH l El ltac:(intros X; apply Hz; right; auto)) as (p0 & -> & ->). exists p0. split; reflexivity. }
      destruct Hp as (p0 & -> & El').
      assert (Hql : In x l') by (rewrite El'; apply in_or_app; right; right; auto).
      rewrite <- app_assoc in Hc. apply in_app_or in Hc. destruct Hc as [Hc|Hc].
      + exfalso. eapply nodup_apart; [exact HN| |exact Hql]. eauto.
      + eapply H2; eauto.
  Qed.

  Notation phase1 := (fun (st : list C * Dpo (C := C) (VM := VM)) i =>
      let '(order, (stack, (discovered, finished))) := st in
      let! v := visited discovered i in
      if v then Ok st
      else push_all (dpo_next nb nb_next visit visited) ([i], (discovered, finished)) order).

  Lemma phase1_ok : forall l, incl l board -> forall order dm fm st0,
    VR dm order -> VR fm order -> NoDup order -> incl order board -> closed order ->
    Crosses order ->
    exists order' dm' fm' st1, fold_outcome phase1 l (order, (st0, (dm, fm)))
        = Ok (order', (st1, (dm', fm'))) /\
      VR dm' order' /\ NoDup order' /\ incl order' board /\ Crosses order' /\
      incl l order' /\ incl order order'.
  Proof using All.
    induction l as [|i l IH]; intros HI order dm fm st0 V1 V2 N1 I1 C1 X1.
    - exists order, dm, fm, st0. split; [reflexivity|]. split; auto. split; auto. split; auto.
      split; auto. split; [intros x []|apply incl_refl].
    - assert (Hi : In i board) by (apply HI; left; auto).
      assert (HI' : incl l board) by (intros x Hx; apply HI; right; auto).
      destruct (Hvisited dm order i V1 Hi) as (b & Eb & Hb). cbn [fold_outcome]. rewrite Eb.
      cbn [bind]. destruct b.
      + destruct (IH HI' order dm fm st0 V1 V2 N1 I1 C1 X1)
          as (o' & dm' & fm' & st1 & E1 & E2 & E3 & E4 & E5 & E6 & E7). cbn [bind].
        exists o', dm', fm', st1. split; auto. split; auto. split; auto. split; auto. split; auto.
        split; auto. intros x [<-|Hx]; auto. apply E7, Hb. auto.
      + assert (Hio : ~ In i order) by (intros H; apply Hb in H; discriminate).
        destruct (post_from nb nb_next visit visited dec board raw VR Hnb Hfew Hoff Hvisit Hvisited
          VRext i Hi order ltac:(lia) N1 I1 C1 Hio dm fm V1 V2)
          as (l' & dm2 & fm2 & F1 & F2 & F3 & F4 & F5 & F6 & F7 & F8).
        assert (I2 : incl (order ++ l') board).
        { intros x Hx. apply F5 in Hx. destruct Hx as [Hx|Hx]; auto. eapply leads_in; eauto. }
        assert (LL : (length l' <= length board)%nat).
        { apply NoDup_incl_length; [|intros x Hx; apply I2, in_or_app; auto].
          clear - F4. induction order as [|a o IH]; auto. apply IH. inversion F4; auto. }
        rewrite (push_all_ok _ _ _ _ _ _ _ order F1
          (dpo_done nb nb_next visit visited (dm2, fm2))) by lia. cbn [bind].
        assert (C2 : closed (order ++ l')).
        { intros c x Hc Hx Hxb. apply F5. apply F5 in Hc. destruct Hc as [Hc|Hc]; [left; eauto|].
          right. eapply leads_trans; [exact Hc|]. apply leads_step; auto. exact (leads_in i c Hi Hc). }
        destruct (IH HI' (order ++ l') dm2 fm2 [] F2 F3 F4 I2 C2)
          as (o' & dm' & fm' & st1 & E1 & E2 & E3 & E4 & E5 & E6 & E7).
        { apply crosses_app; auto. }
        exists o', dm', fm', st1. split; auto. split; auto. split; auto. split; auto. split; auto.
        split; [|eapply incl_tran; [apply incl_appl, incl_refl|exact E7]].
        intros x [<-|Hx]; auto. apply E7, F5. right. apply leads_refl.
  Qed.

  Lemma finish_ok : exists order dpo,
    finish_order ids ids_next nb nb_next visit visited fresh = Ok (order, dpo) /\
    VR (fst (snd dpo)) order /\ NoDup order /\ (forall c, In c order <-> In c board) /\
    Crosses order.
  Proof using All.
    destruct (phase1_ok board (incl_refl _) [] fresh fresh [] Hfresh Hfresh (NoDup_nil _))
      as (o & dm & fm & st & E1 & E2 & E3 & E4 & E5 & E6 & E7).
    { intros x []. }
    { intros c x []. }
    { intros p z q c x El. destruct p; discriminate. }
    exists o, (st, (dm, fm)). split; [|split; [auto|split; [auto|split; [|auto]]]].
    - unfold finish_order. eapply for_each_fold; [exact Hids|lia|exact E1].
    - intros c. split; auto.
  Qed.

  (** ** The second phase *)

  Record DInv (M0 : list C) (start : C) (L st : list C) (vm : VM) : Prop := {
    di_vm : VR vm L;
    di_nd : NoDup L;
    di_board : incl L board;
    di_old : exists l, L = M0 ++ l;
    di_stack : forall x, In x st -> (exists p, In p board /\ In x (raw p) /\ leads start p) \/ x = start;
    di_closed : forall c x, In c L -> In x (raw c) -> In x board -> In x L \/ In x st;
    di_reached : forall c, In c L -> In c M0 \/ leads start c;
    di_start : In start L \/ In start st }.

  Lemma dfs_pop_from : forall M0 start, In start board -> forall st L vm, DInv M0 start L st vm ->
    (exists vm', dfs_pop nb nb_next visit visited st vm = Ok (None, ([], vm')) /\
       DInv M0 start L [] vm') \/
    (exists z st' vm', dfs_pop nb nb_next visit visited st vm = Ok (Some z, (st', vm')) /\
       DInv M0 start (L ++ [z]) st' vm' /\ ~ In z L /\ In z board).
  Proof using All.
    intros M0 start Hs. induction st as [|x st IH]; intros L vm HI.
    - left. exists vm. split; auto.
    - destruct HI as [I1 I2 I3 I4 I5 I6 I7 I8]. cbn [dfs_pop].
      destruct (in_dec dec x board) as [Hxb|Hxb].
      + destruct (Hvisit vm L x I1 Hxb) as (b & vm' & E1 & Hb & V1). rewrite E1. cbn [bind].
        destruct b.
        * right. assert (HxL : ~ In x L) by (apply Hb; auto).
          assert (Hr : leads start x).
          { destruct (I5 x (or_introl eq_refl)) as [(p & P1 & P2 & P3)| ->]; [|apply leads_refl].
            eapply leads_trans; [exact P3|]. apply leads_step; auto. }
          destruct (push_any visited dec board VR Hvisited (raw x) (x :: L) vm' V1) with (st := st)
            as (news & F1 & F2 & F3).
          { intros y [<-|Hy]; auto. }
          { intros y Hy Hyb. apply (Hoff x y Hxb Hy Hyb). }
          rewrite (for_each_exact _ _ _ _ _ _ _ _ (Hnb x Hxb)).
          2:{ pose proof (Hfew x Hxb). lia. }
          rewrite F1. cbn [bind]. exists x, (news ++ st), vm'. split; auto. split; [|auto].
          destruct I4 as (l0 & El). constructor.
          -- eapply VRext; [exact V1|]. intros c. rewrite in_app_iff. cbn [In]. tauto.
          -- apply snoc_nodup; auto.
          -- intros c Hc. apply in_app_or in Hc. destruct Hc as [Hc|[<-|[]]]; auto.
          -- exists (l0 ++ [x]). rewrite El, app_assoc. reflexivity.
          -- intros y Hy. apply in_app_or in Hy. destruct Hy as [Hy|Hy].
             ++ left. exists x. apply F3 in Hy. tauto.
             ++ apply I5. right; auto.
          -- intros c y Hc Hy Hyb. rewrite !in_app_iff. cbn [In]. apply in_app_or in Hc.
             destruct Hc as [Hc|[<-|[]]].
             ++ destruct (I6 c y Hc Hy Hyb) as [X|[<-|X]]; auto.
             ++ destruct (in_dec dec y (x :: L)) as [[X|X]|X]; auto. right; left. apply F3. auto.
          -- intros c Hc. apply in_app_or in Hc. destruct Hc as [Hc|[<-|[]]]; auto.
          -- rewrite !in_app_iff. cbn [In]. destruct I8 as [X|[X|X]]; auto.
        * assert (HxL : In x L).
          { destruct (in_dec dec x L) as [|n]; auto. apply Hb in n. discriminate. }
          apply IH. constructor; auto.
          -- eapply VRext; [exact V1|]. intros c. cbn [In]. split; auto. intros [<-|]; auto.
          -- intros y Hy. apply I5. right; auto.
          -- intros c y Hc Hy Hyb. destruct (I6 c y Hc Hy Hyb) as [X|[<-|X]]; auto.
          -- destruct I8 as [X|[<-|X]]; auto.
      + assert (E1 : visit vm x = Ok (false, vm)).
        { destruct (I5 x (or_introl eq_refl)) as [(p & P1 & P2 & P3)| ->]; [|contradiction].
          apply (Hoff p x P1 P2 Hxb vm). }
        rewrite E1. cbn [bind]. apply IH. constructor; auto.
        * intros y Hy. apply I5. right; auto.
        * intros c y Hc Hy Hyb. destruct (I6 c y Hc Hy Hyb) as [X|[<-|X]]; auto. contradiction.
        * destruct I8 as [X|[X|X]]; auto. subst x. contradiction.
  Qed.

  Lemma dfs_run : forall M0 start, In start board -> forall k L st vm, DInv M0 start L st vm ->
    (length board - length L < k)%nat ->
    exists l it1 vm', Consumed (dfs_next nb nb_next visit visited) (st, vm) l it1 /\
      dfs_next nb nb_next visit visited it1 = Ok (None, ([], vm')) /\
      DInv M0 start (L ++ l) [] vm'.
  Proof using All.
    intros M0 start Hs. induction k as [|k IH]; intros L st vm HI Hk; [lia|].
    destruct (dfs_pop_from M0 start Hs st L vm HI) as [(vm' & E1 & HI')|(z & st' & vm' & E1 & HI' & HzL & Hzb)].
    - exists [], (st, vm), vm'. split; [constructor|]. split; [exact E1|]. rewrite app_nil_r. auto.
    - assert (LD : (length (L ++ [z]) <= length board)%nat).
      { apply NoDup_incl_length; [exact (di_nd _ _ _ _ _ HI')|exact (di_board _ _ _ _ _ HI')]. }
      rewrite app_length in LD. cbn [length] in LD.
      destruct (IH (L ++ [z]) st' vm' HI') as (l & it1 & vm2 & F1 & F2 & F3).
      { rewrite app_length. cbn [length]. lia. }
      exists (z :: l), it1, vm2. split; [econstructor; [exact E1|exact F1]|]. split; auto.
      rewrite <- app_assoc in F3. exact F3.
  Qed.

  Lemma dfs_first : forall start vm vm2, visit vm start = Ok (true, vm2) -> forall x it,
    dfs_next nb nb_next visit visited ([start], vm) = Ok (x, it) -> x = Some start.
  Proof.
    intros start vm vm2 E x it. unfold dfs_next. cbn [fst snd dfs_pop]. rewrite E. cbn [bind].
    match goal with |- context [for_each ?a ?b ?c ?d] => generalize (for_each a b c d) end.
    intros [s'|f]; cbn [bind]; [|discriminate]. intros H. injection H as <- _. reflexivity.
  Qed.

  Lemma dfs_from : forall M0 start vm, In start board -> VR vm M0 -> NoDup M0 -> incl M0 board ->
    closed M0 -> ~ In start M0 ->
    exists l it1 vm', Consumed (dfs_next nb nb_next visit visited) ([start], vm) (start :: l) it1 /\
      dfs_next nb nb_next visit visited it1 = Ok (None, ([], vm')) /\
      VR vm' (M0 ++ start :: l) /\ NoDup (M0 ++ start :: l) /\ incl (M0 ++ start :: l) board /\
      closed (M0 ++ start :: l) /\
      (forall c, In c (start :: l) <-> leads start c /\ ~ In c M0).
  Proof using All.
    intros M0 start vm Hs V N I CL Hn.
    assert (HI : DInv M0 start M0 [start] vm).
    { constructor; auto.
      - exists []. rewrite app_nil_r. reflexivity.
      - intros x [<-|[]]. auto.
      - intros c x Hc Hx Hxb. left. eauto.
      - right. left. auto. }
    destruct (dfs_run M0 start Hs _ M0 [start] vm HI (Nat.lt_succ_diag_r _))
      as (l & it1 & vm' & F1 & F2 & F3).
    destruct F3 as [I1 I2 I3 I4 I5 I6 I7 I8].
    assert (El : exists l', l = start :: l').
    { inversion F1 as [it0 Ei Ex Ea|it0 x it2 l0 it3 Hx HC' Ei Ex Ea]; subst.
      - rewrite app_nil_r in *. exfalso. destruct I8 as [X|[]]; auto.
      - destruct (Hvisit vm M0 start V Hs) as (b & vm2 & E1 & Hb & V1).
        assert (b = true) by (apply Hb; auto). subst b.
        pose proof (dfs_first start vm vm2 E1 _ _ Hx) as Ez. injection Ez as ->. eauto. }
    destruct El as (l' & ->). exists l', it1, vm'.
    assert (CL2 : closed (M0 ++ start :: l')).
    { intros c x Hc Hx Hxb. destruct (I6 c x Hc Hx Hxb) as [X|[]]; auto. }
    repeat (split; [assumption|]). intros c. split.
    - intros Hc. assert (HcM : ~ In c M0) by (intros X; eapply nodup_apart; eauto).
      split; auto. destruct (I7 c) as [X|X]; auto; [apply in_or_app; auto|contradiction].
    - intros [H1 H2]. assert (X : In c (M0 ++ start :: l')).
      { eapply closed_leads; [exact I3|exact CL2| |exact H1]. apply in_or_app. right. left; auto. }
      apply in_app_or in X. destruct X; [contradiction|auto].
  Qed.

  Notation phase2 := (fun (st : list (list C) * Dfs (C := C) (VM := VM)) i =>
      let '(sccs, (stack, discovered)) := st in
      let! v := visited discovered i in
      if v then Ok st
      else
        let! (scc, dfs) := push_all (dfs_next nb nb_next visit visited) ([i], discovered) [] in
        Ok (sccs ++ [scc], dfs)).

  (** Every list is what its first node leads to, less the lists before; and all that comes
      before its first node in [o] is in the lists before. *)
  Definition Piled (o : list C) (ls : list (list C)) : Prop :=
    forall l1 l l2, ls = l1 ++ l :: l2 -> exists r l' pre post, l = r :: l' /\
      (forall c, In c l <-> leads r c /\ ~ In c (concat l1)) /\
      o = pre ++ r :: post /\ incl pre (concat l1).

  Lemma snoc_split : forall X (a : list X) x b y c, a ++ [x] = b ++ y :: c ->
    (c = [] /\ a = b /\ x = y) \/ exists c', c = c' ++ [x] /\ a = b ++ y :: c'.
  Proof.
    intros X a x b y c H. destruct c as [|c0 c].
    - left. apply app_inj_tail in H. destruct H. auto.
    - right. destruct (@exists_last _ (c0 :: c)) as (c' & z & Ec); [discriminate|].
      rewrite Ec in *. exists c'.
      change (b ++ y :: c' ++ [z]) with (b ++ (y :: c') ++ [z]) in H. rewrite app_assoc in H.
      apply app_inj_tail in H. destruct H as [-> ->]. auto.
  Qed.

  Lemma phase2_ok : forall o l pre0, o = pre0 ++ l -> incl o board -> forall sccs st0 vm,
    VR vm (concat sccs) -> NoDup (concat sccs) -> incl (concat sccs) board ->
    closed (concat sccs) -> Piled o sccs -> incl pre0 (concat sccs) ->
    exists sccs' st1, fold_outcome phase2 l (sccs, (st0, vm)) = Ok (sccs', st1) /\
      NoDup (concat sccs') /\ incl (concat sccs') board /\ incl o (concat sccs') /\
      Piled o sccs'.
  Proof using All.
    intros o. induction l as [|i l IH]; intros pre0 Eo HI sccs st0 vm V N I CL P HP.
    - exists sccs, (st0, vm). rewrite app_nil_r in Eo. subst pre0. auto.
    - assert (Hi : In i board) by (apply HI; rewrite Eo; apply in_or_app; right; left; auto).
      assert (Eo' : o = (pre0 ++ [i]) ++ l) by (rewrite <- app_assoc; exact Eo).
      destruct (Hvisited vm _ i V Hi) as (b & Eb & Hb). cbn [fold_outcome]. rewrite Eb. cbn [bind].
      destruct b.
      + cbn [bind]. apply (IH (pre0 ++ [i])); auto. intros x Hx. apply in_app_or in Hx.
        destruct Hx as [Hx|[<-|[]]]; auto. apply Hb. auto.
      + assert (Hn : ~ In i (concat sccs)) by (intros H; apply Hb in H; discriminate).
        destruct (dfs_from (concat sccs) i vm Hi V N I CL Hn)
          as (l' & it1 & vm' & F1 & F2 & F3 & F4 & F5 & F6 & F7).
        assert (LL : (length (i :: l') <= length board)%nat).
        { apply NoDup_incl_length; [|intros x Hx; apply F5, in_or_app; auto].
          clear - F4. induction (concat sccs) as [|a t IHt]; auto. apply IHt. inversion F4; auto. }
        rewrite (push_all_ok _ _ _ _ _ _ _ [] F1 F2) by lia. cbn [bind app].
        assert (EC : concat (sccs ++ [i :: l']) = concat sccs ++ i :: l').
        { rewrite concat_app. cbn [concat]. rewrite app_nil_r. reflexivity. }
        apply (IH (pre0 ++ [i])); auto; rewrite ?EC; auto.
        * intros l1 l0 l2 El. apply snoc_split in El.
          destruct El as [(-> & -> & <-)|(c' & -> & El)]; [|apply (P l1 l0 c'); auto].
          exists i, l', pre0, l. auto.
        * intros x Hx. apply in_or_app. apply in_app_or in Hx. destruct Hx as [Hx|[<-|[]]]; auto.
          right. left. auto.
  Qed.

  Lemma piled_closed : forall o ls, Piled o ls -> forall l1 l2, ls = l1 ++ l2 ->
    forall a b, In a (concat l1) -> leads a b -> In b (concat l1).
  Proof using dec.
    intros o ls P. induction l1 as [|l l1 IH] using rev_ind; intros l2 El a b Ha Hab; [destruct Ha|].
    rewrite <- app_assoc in El. cbn [app] in El. rewrite concat_app in *. cbn [concat] in *.
    rewrite app_nil_r in *. apply in_or_app. apply in_app_or in Ha. destruct Ha as [Ha|Ha].
    - left. eapply IH; eauto.
    - destruct (P _ _ _ El) as (r & l' & pre & post & E1 & E2 & _). apply E2 in Ha.
      destruct (in_dec dec b (concat l1)); auto. right. apply E2. split; auto.
      eapply leads_trans; [apply Ha|auto].
  Qed.

  Lemma in_concat_split : forall (ls : list (list C)) c, In c (concat ls) ->
    exists l1 l l2, ls = l1 ++ l :: l2 /\ In c l.
  Proof.
    intros ls c H. apply in_concat in H. destruct H as (l & H1 & H2).
    destruct (in_split _ _ H1) as (l1 & l2 & ->). eauto.
  Qed.

  (** No first node leads to the first node of an earlier list. *)
  Lemma roots_apart : forall o ls, NoDup o -> (forall c, In c o <-> In c board) ->
    Crosses (rev o) -> Piled o ls ->
    forall l1 lb l2 la l3 rb ra lb' la', ls = l1 ++ lb :: l2 ++ la :: l3 -> lb = rb :: lb' -> la = ra :: la' ->
    ~ leads ra rb.
  Proof using All.
    intros o ls ND HO HX P l1 lb l2 la l3 rb ra lb' la' El Eb Ea HL.
    destruct (P _ _ _ El) as (r & l' & preb & postb & E1 & E2 & E3 & E4).
    rewrite Eb in E1. injection E1 as <- <-.
    assert (El2 : ls = (l1 ++ lb :: l2) ++ la :: l3) by (rewrite El, <- app_assoc; reflexivity).
    destruct (P _ _ _ El2) as (r & l'' & prea & posta & F1 & F2 & F3 & F4).
    rewrite Ea in F1. injection F1 as <- <-.
    assert (Hra : ~ In ra (concat (l1 ++ lb :: l2))).
    { apply F2. rewrite Ea. left; auto. }
    (* ra comes after rb in o *)
    assert (Hb : In rb prea).
    { assert (X : In ra o) by (rewrite F3; apply in_or_app; right; left; auto).
      rewrite E3 in X. apply in_app_or in X. destruct X as [X|[X|X]].
      - exfalso. apply Hra. apply E4 in X. rewrite concat_app. apply in_or_app. auto.
      - exfalso. subst ra. apply Hra. rewrite concat_app. apply in_or_app. right.
        cbn [concat]. apply in_or_app. left. rewrite Eb. left; auto.
      - assert (Y : In rb o) by (rewrite E3; apply in_or_app; right; left; auto).
        rewrite F3 in Y. apply in_app_or in Y. destruct Y as [Y|[Y|Y]]; auto.
        + exfalso. subst rb. rewrite E3 in ND. apply NoDup_remove_2 in ND. apply ND.
          apply in_or_app. auto.
        + exfalso. (* rb after ra and ra after rb *)
          clear - ND E3 F3 X Y. rewrite F3 in E3, ND. clear F3. revert preb E3 ND.
          induction prea as [|a prea IH]; intros preb E3 ND.
          * destruct preb as [|b preb]; cbn [app] in *; injection E3 as E0 E3;
              inversion ND as [|? ? N1 N2].
            -- apply N1. rewrite E0 at 1. exact Y.
            -- apply N1. rewrite E3. apply in_or_app. right; right; auto.
          * destruct preb as [|b preb]; cbn [app] in *; injection E3 as E0 E3;
              inversion ND as [|? ? N1 N2].
            -- apply N1. rewrite E0. apply in_or_app. right; right; auto.
            -- eapply IH; eauto. }
    (* some node after ra in the order of finishing is tied to ra *)
    assert (EO : rev o = rev posta ++ ra :: rev prea).
    { rewrite F3, rev_app_distr. cbn [rev]. rewrite <- app_assoc. reflexivity. }
    assert (CR : forall n d, Reached nb nb_next board ra n d -> In d (rev prea) ->
      exists x, In x prea /\ leads ra x /\ leads x ra).
    { induction 1 as [|n b c l H IH HD Hc Hcb]; intros Hd.
      - exfalso. rewrite <- in_rev in Hd. apply Hra, F4, Hd.
      - assert (Hbb : In b board).
        { inversion H; subst; auto. apply HO. rewrite F3. apply in_or_app. right; left; auto. }
        assert (Hbo : In b (rev o)) by (rewrite <- in_rev; apply HO; auto).
        rewrite EO in Hbo.
        assert (Hbs : In b (rev prea) \/ In b (rev posta ++ [ra])).
        { rewrite in_app_iff in *. cbn [In] in *. tauto. }
        destruct Hbs as [Hbs|Hbs]; [auto|].
        exists c. split; [rewrite in_rev; auto|]. split; [exists (S n); eapply reached_step; eauto|].
        apply (HX (rev posta) ra (rev prea) b c EO Hbs); auto.
        rewrite (Drains_det _ _ _ _ (Hnb b Hbb) HD). auto. }
    destruct HL as (n & HL). destruct (CR n rb HL) as (x & X1 & X2 & X3).
    { rewrite <- in_rev. auto. }
    apply Hra. eapply (piled_closed o ls P _ (la :: l3) El2 x ra); auto.
  Qed.

  Lemma concat_apart : forall l1 l l2 l' l3 (c : C), NoDup (concat (l1 ++ l :: l2 ++ l' :: l3)) ->
    In c l -> In c l' -> False.
  Proof.
    intros l1 l l2 l' l3 c H H1 H2. rewrite concat_app in H.
    assert (H0 : NoDup (concat (l :: l2 ++ l' :: l3))).
    { revert H. induction (concat l1) as [|a t IH]; auto. intros H. apply IH. inversion H; auto. }
    cbn [concat] in H0. eapply nodup_apart; [exact H0|exact H1|]. rewrite concat_app.
    apply in_or_app. right. cbn [concat]. apply in_or_app. auto.
  Qed.

  (** Two lists of [ls]: the same one, or one before the other. *)
  Lemma two_split : forall X (ls : list X) a1 a a2 b1 b b2, ls = a1 ++ a :: a2 -> ls = b1 ++ b :: b2 ->
    (a1 = b1 /\ a = b /\ a2 = b2) \/ (exists t, b1 = a1 ++ a :: t /\ a2 = t ++ b :: b2) \/
    (exists t, a1 = b1 ++ b :: t /\ b2 = t ++ a :: a2).
  Proof.
    intros X ls a1. revert ls. induction a1 as [|x a1 IH]; intros ls a a2 b1 b b2 H1 H2.
    - destruct b1 as [|y b1]; cbn [app] in *; subst ls; injection H2 as -> ->; [auto|].
      right. left. exists b1. auto.
    - destruct b1 as [|y b1]; cbn [app] in *; subst ls; injection H2 as -> H2.
      + right. right. exists a1. auto.
      + destruct (IH _ a a2 b1 b b2 eq_refl H2) as [(-> & -> & ->)|[(t & -> & ->)|(t & -> & ->)]]; eauto.
  Qed.

  Lemma kosaraju_any : exists ls,
    kosaraju_scc ids ids_next nb nb nb_next visit visited fresh reset = Ok ls /\
    Permutation (concat ls) board /\
    (forall l1 l l2, ls = l1 ++ l :: l2 -> exists r l', l = r :: l' /\
       forall c, In c l <-> leads r c /\ ~ In c (concat l1)) /\
    (forall a b, In a board -> leads a b -> leads b a -> exists l, In l ls /\ In a l /\ In b l) /\
    ((forall l a b, In l ls -> In a l -> In b l -> leads a b) <->
     (forall a b, In a board -> leads a b -> leads b a)).
  Proof using All.
    destruct finish_ok as (order & dpo & E1 & E2 & E3 & E4 & E5).
    assert (ND : NoDup (rev order)) by (apply NoDup_rev; auto).
    destruct (phase2_ok (rev order) (rev order) [] eq_refl) with (sccs := @nil (list C))
      (st0 := @nil C) (vm := reset (fst (snd dpo))) as (ls & st1 & F1 & F2 & F3 & F4 & F5).
    { intros x Hx. rewrite <- in_rev in Hx. apply E4; auto. }
    { cbn [concat]. eapply Hreset; eauto. }
    { constructor. }
    { intros x []. }
    { intros c x []. }
    { intros l1 l l2 El. destruct l1; discriminate. }
    { intros x []. }
    exists ls. split; [|split; [|split; [|split]]].
    - unfold kosaraju_scc. rewrite E1. cbn [bind]. rewrite F1. reflexivity.
    - apply NoDup_Permutation; auto. intros c. split; [apply F3|]. intros Hc. apply F4.
      rewrite <- in_rev. apply E4; auto.
    - intros l1 l l2 El. destruct (F5 l1 l l2 El) as (r & l' & _ & _ & H1 & H2 & _). eauto.
    - intros a b Ha Hab Hba.
      assert (Hc : In a (concat ls)) by (apply F4; rewrite <- in_rev; apply E4; auto).
      destruct (in_concat_split ls a Hc) as (l1 & l & l2 & El & Hl).
      destruct (F5 l1 l l2 El) as (r & l' & _ & _ & H1 & H2 & _).
      exists l. split; [rewrite El; apply in_or_app; right; left; auto|]. split; auto.
      apply H2 in Hl. destruct Hl as [G1 G2]. apply H2. split; [eapply leads_trans; eauto|].
      intros X. apply G2. eapply (piled_closed _ ls F5 l1 (l :: l2) El b a); auto.
    - split.
      + intros HS a b Ha Hab.
        assert (Hb : In b board) by (eapply leads_in; eauto).
        assert (Hca : In a (concat ls)) by (apply F4; rewrite <- in_rev; apply E4; auto).
        assert (Hcb : In b (concat ls)) by (apply F4; rewrite <- in_rev; apply E4; auto).
        destruct (in_concat_split ls a Hca) as (a1 & la & a2 & Ea & Hla).
        destruct (in_concat_split ls b Hcb) as (b1 & lb & b2 & Eb & Hlb).
        destruct (F5 _ _ _ Ea) as (ra & la' & _ & _ & A1 & A2 & _).
        destruct (F5 _ _ _ Eb) as (rb & lb' & _ & _ & B1 & B2 & _).
        destruct (two_split _ ls a1 la a2 b1 lb b2 Ea Eb) as [(-> & -> & ->)|[(t & -> & ->)|(t & -> & ->)]].
        * apply (HS lb b a); auto. rewrite Eb. apply in_or_app; right; left; auto.
        * (* la first: b is in la or before *)
          exfalso. apply B2 in Hlb. destruct Hlb as [_ Hlb]. apply Hlb.
          assert (X : In b (concat (a1 ++ [la]))).
          { eapply (piled_closed _ ls F5 (a1 ++ [la]) (t ++ lb :: b2)) with (a := a); auto.
            - rewrite Ea, <- app_assoc. reflexivity.
            - rewrite concat_app. apply in_or_app. right. cbn [concat]. rewrite app_nil_r. auto. }
          rewrite concat_app in *. cbn [concat] in *. rewrite app_nil_r in X.
          rewrite !in_app_iff in *. tauto.
        * exfalso. assert (Ec : ls = b1 ++ lb :: t ++ la :: a2) by exact Eb.
          eapply (roots_apart (rev order) ls ND) with (rb := rb) (ra := ra) (lb' := lb') (la' := la');
            [| |exact F5|exact Ec|exact B1|exact A1|].
          -- intros c. rewrite <- in_rev. auto.
          -- rewrite rev_involutive. auto.
          -- eapply leads_trans; [|eapply leads_trans; [exact Hab|]].
             ++ apply A2 in Hla. tauto.
             ++ apply (HS lb b rb); auto; [rewrite Ec; apply in_or_app; right; left; auto|].
                rewrite B1. left; auto.
      + intros HS l a b Hl Ha Hb. destruct (in_split _ _ Hl) as (l1 & l2 & El).
        destruct (F5 l1 l l2 El) as (r & l' & _ & _ & H1 & H2 & _).
        assert (Hr : In r board).
        { apply F3. rewrite El, concat_app. apply in_or_app. right. cbn [concat].
          apply in_or_app. left. rewrite H1. left; auto. }
        apply H2 in Ha. apply H2 in Hb. destruct Ha as [Ha _]. destruct Hb as [Hb _].
        eapply leads_trans; [|exact Hb]. apply HS; auto.
  Qed.

  (** Where every node leads to every other there is one list. *)
  Lemma kosaraju_one : (forall a b, In a board -> In b board -> leads a b) ->
    exists l, kosaraju_scc ids ids_next nb nb nb_next visit visited fresh reset
        = Ok (match board with [] => [] | _ => [l] end) /\ Permutation l board.
  Proof using All.
    intros HA. destruct kosaraju_any as (ls & E1 & E2 & E3 & _).
    destruct ls as [|l ls].
    - apply Permutation_nil in E2. exists []. rewrite E1, E2. auto.
    - destruct (E3 [] l ls eq_refl) as (r & l' & El & Hl).
      assert (Hr : In r board).
      { eapply Permutation_in; [exact E2|]. cbn [concat]. rewrite El. left; auto. }
      assert (El2 : ls = []).
      { destruct ls as [|l2 ls]; auto. exfalso.
        destruct (E3 [l] l2 ls eq_refl) as (r2 & l2' & Er & H2).
        assert (Hr2 : In r2 l2) by (rewrite Er; left; auto). apply H2 in Hr2.
        apply (proj2 Hr2). cbn [concat]. rewrite app_nil_r. apply Hl. split; [|intros []].
        apply HA; auto. eapply Permutation_in; [exact E2|]. cbn [concat]. rewrite Er.
        apply in_or_app. right. left; auto. }
      subst ls. cbn [concat] in E2. rewrite app_nil_r in E2. exists l.
      destruct board as [|b0 bs]; [destruct Hr|]. auto.
  Qed.
End Any.
