(** * MatchingProofs: [greedy_matching] pairs nodes until none can be paired in addition. *)

From Verif Require Import Machine Store Traverse Basics TraverseProofs AnySearch FilteredProofs Matching Spec28.
From Coq Require Import ZifyBool ZifyNat.

Lemma filter_one : forall C (dec : forall a b : C, {a = b} + {a <> b}) (f f' : C -> bool) l c, NoDup l -> In c l ->
  f c = false -> f' c = true -> (forall y, In y l -> y <> c -> f' y = f y) ->
  length (filter f' l) = S (length (filter f l)).
Proof.
  intros C dec f f' l c HN Hc F F' HE. induction HN as [|x l Hx HN IH]; [destruct Hc|].
  cbn [filter]. destruct (dec x c) as [->|Hne].
  - rewrite F, F'. cbn [length]. f_equal. f_equal. clear - HE Hx.
    induction l as [|y l IH]; [reflexivity|]. cbn [filter].
    assert (Hy : y <> c) by (intros ->; apply Hx; left; auto).
    rewrite (HE y) by (cbn; auto). rewrite IH; [reflexivity| |].
    + intros H. apply Hx. right. auto.
    + intros z [<-|Hz] Hzc; apply HE; cbn; auto.
  - destruct Hc as [->|Hc]; [congruence|]. rewrite (HE x) by (cbn; auto).
    assert (K : length (filter f' l) = S (length (filter f l))) by (apply IH; auto; intros; apply HE; cbn; auto).
    destruct (f x); cbn [length]; rewrite K; reflexivity.
Qed.

Section Any.
  Context {C It Ids VM : Type} (m : mode) (ids : Ids) (ids_next : Ids -> outcome (option C * Ids))
    (nb : C -> It) (nb_next : C -> It -> outcome (option C * It))
    (bound : outcome Z) (to_index : C -> outcome Z)
    (fresh : VM) (visit : VM -> C -> outcome (bool * VM)) (visited : VM -> C -> outcome bool)
    (dec : forall a b : C, {a = b} + {a <> b})
    (board : list C) (nbs : C -> list C) (ix : C -> nat) (VR : VM -> list C -> Prop)
    (Hids : Drains ids_next ids board) (Hnd : NoDup board)
    (Hnb : forall c, In c board -> Drains (nb_next c) (nb c) (nbs c))
    (Hsize : forall c, In c board -> Z.of_nat (length (nbs c)) + 1 < 2 ^ 72)
    (Hin : forall a b, In a board -> In b (nbs a) -> In b board)
    (Hsym : forall a b, In a board -> In b (nbs a) -> In a (nbs b))
    (Hbound : bound = Ok (Z.of_nat (length board)))
    (Hix : forall c, In c board -> to_index c = Ok (Z.of_nat (ix c)) /\ (ix c < length board)%nat)
    (Hinj : forall a b, In a board -> In b board -> ix a = ix b -> a = b)
    (Hlen : Z.of_nat (length board) < 2 ^ 64)
    (Hvisit : forall vm M c, VR vm M -> In c board ->
       exists b vm', visit vm c = Ok (b, vm') /\ (b = true <-> ~ In c M) /\ VR vm' (c :: M))
    (Hvisited : forall vm M c, VR vm M -> In c board ->
       exists b, visited vm c = Ok b /\ (b = true <-> In c M))
    (VRext : forall vm M M', VR vm M -> (forall c, In c M <-> In c M') -> VR vm M')
    (Hfresh : VR fresh []).

  Definition Mt (ma : list (option C)) (c : C) : option C :=
    match nth_error ma (ix c) with Some x => x | None => None end.

  Lemma set_ok : forall ma c x, length ma = length board -> In c board ->
    exists ma', set_mate to_index ma c x = Ok ma' /\ length ma' = length board /\
      Mt ma' c = Some x /\ forall y, In y board -> y <> c -> Mt ma' y = Mt ma y.
  Proof using Hix Hinj.
    clear - Hix Hinj. intros ma c x HL Hc. destruct (Hix c Hc) as [H1 H2]. unfold set_mate. rewrite H1.
    cbn [bind]. replace ((0 <=? Z.of_nat (ix c)) && (Z.of_nat (ix c) <? Z.of_nat (length ma))) with true by lia.
    rewrite Nat2Z.id. eexists. split; [reflexivity|]. split; [rewrite list_set_length; auto|]. unfold Mt. split.
    - rewrite nth_error_list_set_eq by lia. reflexivity.
    - intros y Hy Hn. rewrite nth_error_list_set_neq; [reflexivity|]. intros E. apply Hn. symmetry. auto.
  Qed.

  (** [V]: the nodes met so far. *)
  Record Inv (V : list C) (ma : list (option C)) (n : Z) : Prop := {
    i_in : incl V board;
    i_len : length ma = length board;
    i_pair : forall a b, In a board -> Mt ma a = Some b ->
      In a V /\ In b board /\ a <> b /\ In b (nbs a) /\ Mt ma b = Some a;
    i_count : 2 * n = Z.of_nat (length (with_mate board (Mt ma)));
    i_around : forall a b, In a V -> Mt ma a = None -> In b (nbs a) -> In b V;
    i_apart : forall a b, In a V -> In b V -> Mt ma a = None -> Mt ma b = None -> In b (nbs a) -> a = b
  }.

  Lemma inv_ext : forall V V' ma n, Inv V ma n -> (forall c, In c V <-> In c V') -> Inv V' ma n.
  Proof using.
    clear. intros V V' ma n [I0 I1 I2 I3 I4 I5] H. constructor; auto.
    - intros c Hc. apply I0, H. auto.
    - intros a b Ha Hb. destruct (I2 a b Ha Hb) as (J & ?). split; auto. apply H. auto.
    - intros a b Ha Hb Hc. apply H. apply (I4 a b); auto. apply H. auto.
    - intros a b Ha Hb. apply I5; apply H; auto.
  Qed.

  Lemma first_ok : forall vm V c, VR vm V -> In c board ->
    exists t, first_unvisited nb nb_next visited vm c = Ok t /\
      match t with
      | Some t => In t (nbs c) /\ ~ In t V
      | None => incl (nbs c) V
      end.
  Proof using Hnb Hsize Hin Hvisited.
    clear - Hnb Hsize Hin Hvisited. intros vm V c HV Hc. unfold first_unvisited.
    destruct (Hnb c Hc) as (it1 & it2 & HC & HN & _). pose proof (Hsize c Hc) as HS.
    match goal with |- context [loop ?b (nb c)] => set (body := b) end.
    assert (HI : incl (nbs c) board) by (intros x Hx; eauto).
    enough (HR : exists t n, (n <= length (nbs c))%nat /\ Rounds body n (nb c) (Ok t) /\
      match t with Some t => In t (nbs c) /\ ~ In t V | None => incl (nbs c) V end).
    { destruct HR as (t & n & Hn & HR & HT). exists t. split; auto. eapply loop_rounds; [exact HR|lia]. }
    clear HS. revert HI. induction HC as [it|it x it' l it3 H HC IH]; intros HI.
    - exists None, 0%nat. split; [lia|]. split; [|intros x []]. apply R_done. unfold body. rewrite HN. reflexivity.
    - destruct (Hvisited vm V x HV (HI x (or_introl eq_refl))) as (b & E1 & E2). destruct b.
      + destruct (IH HN) as (t & n & Hn & HR & HT); [intros y Hy; apply HI; right; auto|].
        exists t, (S n). split; [cbn [length]; lia|]. split.
        * eapply R_more; [|exact HR]. unfold body. rewrite H. cbn [bind]. rewrite E1. reflexivity.
        * destruct t as [t|]; [destruct HT; split; auto; right; auto|].
          intros y [<-|Hy]; [apply E2; auto|auto].
      + exists (Some x), 0%nat. split; [lia|]. split.
        * apply R_done. unfold body. rewrite H. cbn [bind]. rewrite E1. reflexivity.
        * split; [left; auto|]. intros K. apply E2 in K. discriminate.
  Qed.

  Lemma unmatched : forall V ma n c, Inv V ma n -> In c board -> ~ In c V -> Mt ma c = None.
  Proof using.
    clear. intros V ma n c I Hc Hn. destruct (Mt ma c) as [b|] eqn:E; auto.
    destruct (i_pair _ _ _ I c b Hc E) as (K & _). contradiction.
  Qed.

  (** Nothing left around [c]. *)
  Lemma inv_end : forall V ma n c, Inv V ma n -> In c board -> ~ In c V ->
    incl (nbs c) (c :: V) -> Inv (c :: V) ma n.
  Proof using Hin Hsym.
    clear - Hin Hsym. intros V ma n c I Hc Hn HA. pose proof (unmatched _ _ _ _ I Hc Hn) as HU. destruct I as [I0 I1 I2 I3 I4 I5].
    constructor; auto.
    - intros x [<-|Hx]; auto.
    - intros a b Ha Hb. destruct (I2 a b Ha Hb) as (J & ?). split; auto. right. auto.
    - intros a b [<-|Ha] Hb Hab; [apply HA; auto|right; eauto].
    - intros a b [<-|Ha] [<-|Hb] Ma Mb Hab; auto.
      + exfalso. apply Hn. apply (I4 b c); auto.
      + exfalso. apply Hn. apply (I4 a c); auto.
  Qed.

  (** [c] is paired with [t]. *)
  Lemma inv_pair : forall V ma n c t, Inv V ma n -> In c board -> ~ In c V -> In t (nbs c) -> ~ In t (c :: V) ->
    exists ma1 ma2, set_mate to_index ma c t = Ok ma1 /\ set_mate to_index ma1 t c = Ok ma2 /\
      Inv (t :: c :: V) ma2 (n + 1).
  Proof using Hin Hsym Hix Hinj Hnd dec.
    clear - Hin Hsym Hix Hinj Hnd dec. intros V ma n c t I Hc Hn Ht Htn.
    assert (Htb : In t board) by eauto. assert (Hne : c <> t) by (intros ->; apply Htn; left; auto).
    assert (HtV : ~ In t V) by (intros K; apply Htn; right; auto).
    pose proof (unmatched _ _ _ _ I Hc Hn) as Uc. pose proof (unmatched _ _ _ _ I Htb HtV) as Ut.
    destruct I as [I0 I1 I2 I3 I4 I5].
    destruct (set_ok ma c t I1 Hc) as (ma1 & E1 & L1 & A1 & B1).
    destruct (set_ok ma1 t c L1 Htb) as (ma2 & E2 & L2 & A2 & B2).
    exists ma1, ma2. split; auto. split; auto.
    assert (M2c : Mt ma2 c = Some t) by (rewrite B2; auto).
    assert (M2 : forall y, In y board -> y <> c -> y <> t -> Mt ma2 y = Mt ma y).
    { intros y Hy H1 H2. rewrite B2, B1; auto. }
    assert (K : forall a, In a board -> Mt ma2 a = None -> a <> c /\ a <> t /\ Mt ma a = None).
    { intros a Ha Hm. assert (a <> c) by congruence. assert (a <> t) by congruence. rewrite <- M2; auto. }
    assert (I0' : incl (t :: c :: V) board) by (intros x [<-|[<-|Hx]]; auto).
    constructor; auto.
    - intros a b Ha Hb. destruct (dec a c) as [->|Hac].
      { rewrite M2c in Hb. injection Hb as <-. split; [cbn; auto|]. auto. }
      destruct (dec a t) as [->|Hat].
      { rewrite A2 in Hb. injection Hb as <-. split; [cbn; auto|]. auto 6. }
      rewrite M2 in Hb by auto. destruct (I2 a b Ha Hb) as (J1 & J2 & J3 & J4 & J5).
      split; [cbn; auto|]. split; auto. split; auto. split; auto. rewrite M2; auto; congruence.
    - assert (F1 : length (with_mate board (Mt ma1)) = S (length (with_mate board (Mt ma)))).
      { apply (filter_one _ dec) with c; auto; [rewrite Uc; auto|rewrite A1; auto|].
        intros y Hy Hyc. rewrite B1; auto. }
      assert (F2 : length (with_mate board (Mt ma2)) = S (length (with_mate board (Mt ma1)))).
      { apply (filter_one _ dec) with t; auto; [rewrite B1, Ut; auto|rewrite A2; auto|].
        intros y Hy Hyc. rewrite B2; auto. }
      rewrite F2, F1. lia.
    - intros a b Ha Hm Hab. destruct (K a (I0' a Ha) Hm) as (K1 & K2 & K3).
      destruct Ha as [->|[->|Ha]]; try congruence. right. right. eauto.
    - intros a b Ha Hb Ma Mb Hab. destruct (K a (I0' a Ha) Ma) as (K1 & K2 & K3).
      destruct (K b (I0' b Hb) Mb) as (K4 & K5 & K6).
      destruct Ha as [->|[->|Ha]]; try congruence. destruct Hb as [->|[->|Hb]]; try congruence. eauto.
  Qed.

  Lemma inv_few : forall V ma n, Inv V ma n -> 0 <= n /\ 2 * n <= Z.of_nat (length board).
  Proof using.
    clear. intros V ma n I. pose proof (i_count _ _ _ I) as H. unfold with_mate in H.
    pose proof (filter_short _ (fun c => match Mt ma c with Some _ => true | None => false end) board). lia.
  Qed.

  Notation walk := (non_backtracking_dfs m nb nb_next to_index visit visited).

  Lemma walk_ok : forall fuel c ma n last vm V, VR vm V -> NoDup V -> incl V board -> In c board -> ~ In c V ->
    (length board < fuel + length V)%nat ->
    (last = Some c /\ Inv V ma n \/ last = None /\ Inv (c :: V) ma n) ->
    exists st V', walk fuel c (mkGreedy ma n last vm) = Ok st /\ VR (gr_vm st) V' /\ NoDup V' /\
      Inv V' (gr_mate st) (gr_edges st) /\ incl (c :: V) V'.
  Proof.
    induction fuel as [|fuel IH]; intros c ma n last vm V HV HN HI Hc Hn HF HL.
    { exfalso. pose proof (NoDup_incl_length HN HI). lia. }
    cbn [non_backtracking_dfs gr_vm gr_mate gr_edges gr_last].
    destruct (Hvisit vm V c HV Hc) as (b & vm' & E1 & E2 & E3). rewrite E1. cbn [bind].
    destruct b; [|exfalso; assert (false = true) by (apply E2; auto); discriminate].
    destruct (first_ok vm' (c :: V) c E3 Hc) as (t & F1 & F2). rewrite F1. cbn [bind].
    assert (HN' : NoDup (c :: V)) by (constructor; auto).
    assert (HI' : incl (c :: V) board) by (intros x [<-|Hx]; auto).
    destruct t as [t|].
    - destruct F2 as [F2 F3]. unfold meet. cbn [gr_vm gr_mate gr_edges gr_last].
      assert (Ht : In t board) by eauto.
      destruct HL as [[-> I]|[-> I]].
      + destruct (inv_pair V ma n c t I Hc Hn F2 F3) as (ma1 & ma2 & S1 & S2 & I').
        rewrite S1. cbn [bind]. rewrite S2. cbn [bind].
        destruct (inv_few _ _ _ I) as [N1 N2].
        rewrite usize_add_ok by (rewrite ?USIZE_val; change (2 ^ 64) with 18446744073709551616 in *; lia). cbn [bind].
        destruct (IH t ma2 (n + 1) None vm' (c :: V) E3 HN' HI' Ht F3) as (st & V' & W1 & W2 & W3 & W4 & W5);
          [cbn [length]; lia|auto|].
        exists st, V'. repeat (split; auto). intros x Hx. apply W5. right. auto.
      + cbn [bind].
        destruct (IH t ma n (Some t) vm' (c :: V) E3 HN' HI' Ht F3) as (st & V' & W1 & W2 & W3 & W4 & W5);
          [cbn [length]; lia|auto|].
        exists st, V'. repeat (split; auto). intros x Hx. apply W5. right. auto.
    - exists (mkGreedy ma n last vm'), (c :: V). cbn [gr_vm gr_mate gr_edges].
      split; [reflexivity|]. split; [exact E3|]. split; [exact HN'|]. split.
      + destruct HL as [[-> I]|[-> I]]; auto. apply inv_end; auto.
      + intros x Hx. exact Hx.
  Qed.

  Lemma starts_ok : forall l st V, incl l board -> VR (gr_vm st) V -> NoDup V ->
    Inv V (gr_mate st) (gr_edges st) ->
    exists st' V', fold_outcome (fun st start => walk (S (length board)) start
        (mkGreedy (gr_mate st) (gr_edges st) (Some start) (gr_vm st))) l st = Ok st' /\
      VR (gr_vm st') V' /\ NoDup V' /\ Inv V' (gr_mate st') (gr_edges st') /\ incl V V' /\ incl l V'.
  Proof.
    induction l as [|c l IH]; intros st V HI HV HN I.
    - exists st, V. cbn [fold_outcome]. repeat (split; auto); intros x Hx; auto; destruct Hx.
    - cbn [fold_outcome]. assert (Hc : In c board) by (apply HI; left; auto).
      assert (HI' : incl l board) by (intros x Hx; apply HI; right; auto).
      destruct (in_dec dec c V) as [Hin'|Hn].
      + destruct (Hvisit (gr_vm st) V c HV Hc) as (b & vm' & E1 & E2 & E3).
        destruct b; [exfalso; apply E2; auto|].
        assert (W : walk (S (length board)) c (mkGreedy (gr_mate st) (gr_edges st) (Some c) (gr_vm st)) =
          Ok (mkGreedy (gr_mate st) (gr_edges st) (Some c) vm')).
        { cbn [non_backtracking_dfs gr_vm gr_mate gr_edges gr_last]. rewrite E1. reflexivity. }
        rewrite W. cbn [bind].
        destruct (IH (mkGreedy (gr_mate st) (gr_edges st) (Some c) vm') V HI') as (st' & V' & W1 & W2 & W3 & W4 & W5 & W6); auto.
        { cbn [gr_vm]. eapply VRext; [exact E3|]. intros x. split; [intros [<-|]; auto|right; auto]. }
        exists st', V'. repeat (split; auto). intros x [<-|Hx]; auto.
      + destruct (walk_ok (S (length board)) c (gr_mate st) (gr_edges st) (Some c) (gr_vm st) V HV HN
          (i_in _ _ _ I) Hc Hn) as (st1 & V1 & W1 & W2 & W3 & W4 & W5); [lia|auto|].
        rewrite W1. cbn [bind].
        destruct (IH st1 V1 HI' W2 W3 W4) as (st' & V' & X1 & X2 & X3 & X4 & X5 & X6).
        exists st', V'. repeat (split; auto).
        * intros x Hx. apply X5, W5. right. auto.
        * intros x [<-|Hx]; auto. apply X5, W5. left. auto.
  Qed.

  Lemma fresh_inv : Inv [] (repeat None (length board)) 0.
  Proof.
    assert (K : forall c, Mt (repeat None (length board)) c = None).
    { intros c. unfold Mt. destruct (nth_error (repeat None (length board)) (ix c)) as [x|] eqn:E; auto.
      apply nth_error_In, repeat_spec in E. auto. }
    constructor.
    - intros x [].
    - apply repeat_length.
    - intros a b _ H. rewrite K in H. discriminate.
    - unfold with_mate.
      assert (Q : forall l, filter (fun c => match Mt (repeat None (length board)) c with Some _ => true | None => false end) l = []).
      { induction l as [|c l IH]; [reflexivity|]. cbn [filter]. rewrite K. auto. }
      rewrite Q. reflexivity.
    - intros a b [].
    - intros a b [].
  Qed.

  Theorem greedy_ok : exists r,
    greedy_matching m ids ids_next nb nb_next bound to_index fresh visit visited = Ok r /\
    length (fst r) = length board /\
    Paired (fun a b => In b (nbs a)) board (Mt (fst r)) /\
    NoneLeft (fun a b => In b (nbs a)) board (Mt (fst r)) /\
    2 * snd r = Z.of_nat (length (with_mate board (Mt (fst r)))) /\
    forall c, In c board -> mate_of to_index r c = Ok (Mt (fst r) c).
  Proof.
    unfold greedy_matching. rewrite Hbound. cbn [bind]. rewrite Nat2Z.id.
    destruct (starts_ok board (mkGreedy (repeat None (length board)) 0 None fresh) [])
      as (st & V & W1 & W2 & W3 & W4 & _ & W6).
    { intros x Hx. auto. } { exact Hfresh. } { constructor. } { apply fresh_inv. }
    rewrite (for_each_exact _ _ _ _ _ board) by (auto; change (2 ^ 64) with 18446744073709551616 in *;
      change (2 ^ 72) with 4722366482869645213696; lia).
    rewrite W1. cbn [bind]. eexists. split; [reflexivity|]. cbn [fst snd].
    split; [apply (i_len _ _ _ W4)|]. split; [|split; [|split]].
    - intros a b Ha Hb. destruct (i_pair _ _ _ W4 a b Ha Hb) as (_ & ?). tauto.
    - intros a b Ha Hb Hne Hab. destruct (Mt (gr_mate st) a) eqn:Ma; [left; congruence|].
      destruct (Mt (gr_mate st) b) eqn:Mb; [right; congruence|]. exfalso. apply Hne.
      apply (i_apart _ _ _ W4); auto.
    - apply (i_count _ _ _ W4).
    - intros c Hc. unfold mate_of. destruct (Hix c Hc) as [H1 H2]. rewrite H1. cbn [bind fst].
      rewrite Nat2Z.id. reflexivity.
  Qed.
End Any.
