(** * BellmanProofs: [bellman_ford] on any graph given by lists of edges. *)

From Verif Require Import Machine Store Traverse Basics TraverseProofs AnySearch AstarProofs
  FloydProofs Spec4 Bellman Spec23.
From Coq Require Import ZifyBool ZifyNat ListDec.

(** ** Loops that stop early *)

Fixpoint any_outcome {X} (found : X -> outcome bool) (l : list X) : outcome bool :=
  match l with
  | [] => Ok false
  | x :: l => let! b := found x in if (b : bool) then Ok true else any_outcome found l
  end.

Lemma any_exact : forall It X (next : It -> outcome (option X * It)) it l
  (found : X -> outcome bool), Drains next it l -> Z.of_nat (length l) + 1 < 2 ^ 72 ->
  any_of next it found = any_outcome found l.
Proof.
  intros It X next it l found (it1 & it2 & HC & HN & _) HL. unfold any_of.
  set (body := fun it : It => let! (x, it') := next it in match x with
    | None => Ok (inr false)
    | Some x => let! b := found x in Ok (if (b : bool) then inr true else inl it') end).
  enough (HR : exists n, (n <= length l)%nat /\ Rounds body n it (any_outcome found l)).
  { destruct HR as (n & Hn & HR). eapply loop_rounds; [exact HR|lia]. }
  clear HL. induction HC as [it|it x it' l it3 H HC IH].
  - exists 0%nat. split; auto. apply R_done. unfold body. rewrite HN. reflexivity.
  - cbn [any_outcome]. destruct (found x) as [[|]|f] eqn:Ef; cbn [bind].
    + exists 0%nat. split; [lia|]. apply R_done. unfold body. rewrite H. cbn [bind]. rewrite Ef. reflexivity.
    + destruct (IH HN) as (n & Hn & HR). exists (S n). split; [cbn [length]; lia|].
      eapply R_more; [|exact HR]. unfold body. rewrite H. cbn [bind]. rewrite Ef. reflexivity.
    + exists 0%nat. split; [lia|]. apply R_fail. unfold body. rewrite H. cbn [bind]. rewrite Ef. reflexivity.
Qed.

Lemma any_pure : forall X (found : X -> outcome bool) f l,
  (forall x, In x l -> found x = Ok (f x)) -> any_outcome found l = Ok (existsb f l).
Proof.
  intros X found f l. induction l as [|x l IH]; intros H; [reflexivity|].
  cbn [any_outcome existsb]. rewrite (H x (or_introl eq_refl)). cbn [bind].
  destruct (f x); [reflexivity|]. apply IH. intros; apply H; right; auto.
Qed.

Lemma fold_pure : forall X S (body : S -> X -> outcome S) (f : S -> X -> S) (I : S -> Prop) l s,
  (forall s x, I s -> In x l -> body s x = Ok (f s x) /\ I (f s x)) -> I s ->
  fold_outcome body l s = Ok (fold_left f l s) /\ I (fold_left f l s).
Proof.
  intros X S body f I l. induction l as [|x l IH]; intros s H Hs; [auto|].
  cbn [fold_outcome fold_left]. destruct (H s x Hs (or_introl eq_refl)) as [-> Hf]. cbn [bind].
  apply IH; auto. intros; apply H; auto. right; auto.
Qed.

Lemma dup_split : forall X (dec : forall a b : X, {a = b} + {a <> b}) (l : list X), ~ NoDup l ->
  exists b l1 l2 l3, l = l1 ++ b :: l2 ++ b :: l3.
Proof.
  intros X dec l. induction l as [|x l IH]; intros HN; [elim HN; constructor|].
  destruct (in_dec dec x l) as [Hi|Hn].
  - apply in_split in Hi. destruct Hi as (l2 & l3 & ->). exists x, [], l2, l3. reflexivity.
  - destruct IH as (b & l1 & l2 & l3 & ->); [intros ND; apply HN; constructor; auto|].
    exists b, (x :: l1), l2, l3. reflexivity.
Qed.
Arguments dup_split {X}.

(** ** Routes *)

Section Routes.
  Context {C Ed : Type} (tgt : Ed -> C) (cost : Ed -> Z) (out : C -> list Ed).
  Notation GR := (GRoute tgt cost out).

  Lemma gr_one : forall a e, In e (out a) -> GR a [a; tgt e] (cost e) (tgt e).
  Proof. intros a e He. replace (cost e) with (cost e + 0) by lia. constructor; auto. constructor. Qed.

  Lemma gr_ends : forall a p k b, GR a p k b -> hd_error p = Some a /\ exists p', p = p' ++ [b].
  Proof.
    induction 1 as [c|a e p k b He HR [_ (p' & ->)]].
    - split; auto. exists []. reflexivity.
    - split; auto. exists (a :: p'). reflexivity.
  Qed.

  Lemma gr_app : forall a p k b, GR a p k b -> forall q k' c, GR b (b :: q) k' c ->
    GR a (p ++ q) (k + k') c.
  Proof.
    induction 1 as [c|a e p k b He HR IH]; intros q k' d HQ; [exact HQ|].
    cbn [app]. rewrite <- Z.add_assoc. constructor; auto.
  Qed.

  Lemma gr_cons : forall a p k b, GR a p k b -> exists q, p = a :: q.
  Proof. destruct 1; eauto. Qed.

  Lemma gr_split : forall l1 a b l2 k c, GR a (l1 ++ b :: l2) k c ->
    exists k1 k2, GR a (l1 ++ [b]) k1 b /\ GR b (b :: l2) k2 c /\ k = k1 + k2.
  Proof.
    induction l1 as [|x l1 IH]; intros a b l2 k c HR.
    - destruct (gr_cons _ _ _ _ HR) as (q & [= -> ->]). exists 0, k. repeat split; auto. constructor.
    - cbn [app] in HR. remember (x :: l1 ++ b :: l2) as p eqn:EP. destruct HR as [c|a e p k c He HR].
      + exfalso. destruct l1; discriminate.
      + injection EP as -> ->. destruct (IH _ _ _ _ _ HR) as (k1 & k2 & H1 & H2 & ->).
        exists (cost e + k1), k2. split; [|split; auto; lia]. cbn [app]. constructor; auto.
  Qed.

  (** The last edge of a route. *)
  Lemma gr_last : forall a p k c, GR a p k c ->
    (p = [a] /\ k = 0 /\ c = a) \/
    exists p' b e k', p = p' ++ [c] /\ GR a p' k' b /\ In e (out b) /\ tgt e = c /\ k = k' + cost e.
  Proof.
    induction 1 as [c|a e p k b He HR IH]; [auto|]. right.
    destruct IH as [(-> & -> & ->)|(p' & x & e' & k' & -> & H1 & H2 & H3 & ->)].
    - exists [a], a, e, 0. repeat split; auto; try lia. constructor.
    - exists (a :: p'), x, e', (cost e + k'). repeat split; auto; try lia. constructor; auto.
  Qed.
End Routes.

(** ** The algorithm *)

Section Bellman.
  Context {C Ed Ie NIt : Type} (count bound : outcome Z) (to_index : C -> outcome Z)
    (ids : NIt) (ids_next : NIt -> outcome (option C * NIt))
    (edges : C -> outcome Ie) (edges_next : Ie -> outcome (option Ed * Ie))
    (target : Ed -> outcome C) (weight : Ed -> Z)
    (nodes : list C) (out : C -> list Ed) (tgt : Ed -> C) (dec : forall a b : C, {a = b} + {a <> b}).
  Notation n := (length nodes).
  Context (IDS : Drains ids_next ids nodes) (FEW : Z.of_nat n + 1 < 2 ^ 72)
    (CNT : count = Ok (Z.of_nat n)) (BND : bound = Ok (Z.of_nat n))
    (IDX : forall i c, nth_error nodes i = Some c -> to_index c = Ok (Z.of_nat i))
    (ED : forall c, In c nodes -> exists it, edges c = Ok it /\ Drains edges_next it (out c))
    (DEG : forall c, In c nodes -> Z.of_nat (length (out c)) + 1 < 2 ^ 72)
    (TGT : forall c e, In c nodes -> In e (out c) -> target e = Ok (tgt e))
    (INN : forall c e, In c nodes -> In e (out c) -> In (tgt e) nodes).
  Notation GR := (GRoute tgt weight out).

  Definition idx (c : C) : nat := match to_index c with Ok i => Z.to_nat i | Fail _ => O end.

  Lemma idx_ok : forall c, In c nodes ->
    to_index c = Ok (Z.of_nat (idx c)) /\ (idx c < n)%nat /\ nth_error nodes (idx c) = Some c.
  Proof.
    intros c Hc. apply In_nth_error in Hc. destruct Hc as (i & Hi).
    assert (E : idx c = i) by (unfold idx; rewrite (IDX i c Hi); lia).
    rewrite E. split; [apply IDX; auto|]. split; auto. apply nth_error_Some. congruence.
  Qed.
  Lemma idx_inj : forall a b, In a nodes -> In b nodes -> idx a = idx b -> a = b.
  Proof.
    intros a b Ha Hb HE. destruct (idx_ok a Ha) as (_ & _ & H1). destruct (idx_ok b Hb) as (_ & _ & H2).
    congruence.
  Qed.

  Definition val {X} (l : list (option X)) (c : C) : option X := nth (idx c) l None.

  Lemma val_set : forall X (l : list (option X)) a b x, length l = n -> In a nodes -> In b nodes ->
    val (list_set l (idx b) x) a = if dec a b then x else val l a.
  Proof.
    intros X l a b x HL Ha Hb. unfold val.
    destruct (idx_ok b Hb) as (_ & Lb & _).
    rewrite nth_list_set by lia. destruct (dec a b) as [->|N]; [rewrite Nat.eqb_refl; auto|].
    destruct (Nat.eqb_spec (idx a) (idx b)) as [E|]; auto. elim N. apply idx_inj; auto.
  Qed.

  Lemma get_val : forall X (l : list (option X)) c, length l = n -> In c nodes ->
    row_get l (Z.of_nat (idx c)) = Ok (val l c).
  Proof.
    intros X l c HL Hc. destruct (idx_ok c Hc) as (_ & Lc & _). unfold row_get, val.
    destruct (Z.of_nat (idx c) <? 0) eqn:E; [lia|]. rewrite Nat2Z.id.
    rewrite (nth_error_nth' l None) by lia. reflexivity.
  Qed.

  (** *** One edge *)

  Definition gain (d : list (option Z)) (x : C * Ed) : bool :=
    inf_lt (inf_add (val d (fst x)) (weight (snd x))) (val d (tgt (snd x))).
  Definition relax (st : Relaxed) (x : C * Ed) : Relaxed :=
    let '(d, p, up) := st in
    if gain d x then
      (list_set d (idx (tgt (snd x))) (inf_add (val d (fst x)) (weight (snd x))),
       list_set p (idx (tgt (snd x))) (Some (fst x)), true)
    else st.
  Definition Sized (st : Relaxed (C := C)) : Prop :=
    length (fst (fst st)) = n /\ length (snd (fst st)) = n.

  Lemma improves_ok : forall d a e, length d = n -> In a nodes -> In e (out a) ->
    improves to_index d a (tgt e) (weight e) = Ok (gain d (a, e)).
  Proof.
    intros d a e HL Ha He. pose proof (INN a e Ha He) as Ht. unfold improves, gain.
    destruct (idx_ok a Ha) as (-> & _). destruct (idx_ok _ Ht) as (-> & _). cbn [bind fst snd].
    rewrite (get_val _ d a HL Ha). cbn [bind]. rewrite (get_val _ d _ HL Ht). reflexivity.
  Qed.

  Lemma edge_ok : forall a e st, Sized st -> In a nodes -> In e (out a) ->
    bf_edge to_index target weight a st e = Ok (relax st (a, e)) /\ Sized (relax st (a, e)).
  Proof.
    intros a e [[d p] up] [Hd Hp] Ha He. cbn [fst snd] in *. pose proof (INN a e Ha He) as Ht.
    unfold bf_edge, relax. rewrite (TGT a e Ha He). cbn [bind].
    rewrite (improves_ok d a e) by auto. cbn [bind].
    destruct (gain d (a, e)) eqn:EG; [|split; [reflexivity|split; auto]]. cbn [fst snd].
    destruct (idx_ok a Ha) as (-> & _). destruct (idx_ok _ Ht) as (-> & _). cbn [bind].
    rewrite (get_val _ d a Hd Ha). cbn [bind]. unfold row_set.
    rewrite (get_val _ d _ Hd Ht), (get_val _ p _ Hp Ht). cbn [bind]. rewrite !Nat2Z.id.
    split; [reflexivity|]. split; cbn [fst snd]; rewrite list_set_length; auto.
  Qed.

  (** *** One turn *)

  Definition all_edges : list (C * Ed) := flat_map (fun a => map (pair a) (out a)) nodes.
  Lemma in_all : forall a e, In (a, e) all_edges <-> In a nodes /\ In e (out a).
  Proof.
    clear. intros a e. unfold all_edges. rewrite in_flat_map. split.
    - intros (x & Hx & H). apply in_map_iff in H. destruct H as (e' & [= -> ->] & H). auto.
    - intros [Ha He]. exists a. split; auto. apply in_map_iff. eauto.
  Qed.

  Lemma turn_ok : forall d p up, length d = n -> length p = n ->
    bf_turn to_index ids ids_next edges edges_next target weight (d, p, up)
      = Ok (fold_left relax all_edges (d, p, false)) /\
    Sized (fold_left relax all_edges (d, p, false)).
  Proof.
    intros d p up Hd Hp. unfold bf_turn.
    rewrite (for_each_exact _ _ _ _ _ _ _ _ IDS FEW).
    assert (GO : forall l, incl l nodes -> forall st, Sized st ->
      fold_outcome (fun st i => let! it := edges i in
        for_each edges_next it (bf_edge to_index target weight i) st) l st
      = Ok (fold_left relax (flat_map (fun a => map (pair a) (out a)) l) st) /\
      Sized (fold_left relax (flat_map (fun a => map (pair a) (out a)) l) st)).
    { induction l as [|a l IH]; intros Hl st Hs; [auto|].
      assert (Ha : In a nodes) by (apply Hl; left; auto).
      cbn [fold_outcome flat_map]. rewrite fold_left_app.
      destruct (ED a Ha) as (it & -> & HD). cbn [bind].
      rewrite (for_each_exact _ _ _ _ _ _ _ _ HD (DEG a Ha)).
      destruct (fold_pure _ _ (bf_edge to_index target weight a) (fun st e => relax st (a, e)) Sized
        (out a) st) as [F1 F2]; [intros; apply edge_ok; auto|auto|].
      assert (EM : forall l st, fold_left relax (map (pair a) l) st
        = fold_left (fun st e => relax st (a, e)) l st).
      { clear. induction l as [|e l IH]; intros st; [reflexivity|]. cbn [map fold_left]. apply IH. }
      rewrite F1, EM. cbn [bind]. apply IH; auto. intros x Hx. apply Hl. right; auto. }
    apply (GO nodes); [apply incl_refl|split; auto].
  Qed.

  (** *** What holds all along *)

  Context (start : C) (Hs : In start nodes).

  Definition ole (x : option Z) (y : Z) : Prop := match x with Some x => x <= y | None => False end.
  Definition NoNeg : Prop := forall c p x q k, GR start p x c -> GR c q k c -> 0 <= k.

  Inductive Chain (p : list (option C)) : C -> Prop :=
  | chain_start : val p start = None -> Chain p start
  | chain_step c a : In a nodes -> val p c = Some a -> Chain p a -> Chain p c.

  Record Inv (d : list (option Z)) (p : list (option C)) : Prop := {
    i_d : length d = n;
    i_p : length p = n;
    i_way : forall c x, In c nodes -> val d c = Some x -> exists q, GR start q x c;
    i_start : ole (val d start) 0;
    i_pred : forall c a, In c nodes -> val p c = Some a -> In a nodes /\
      exists e xa xc, In e (out a) /\ tgt e = c /\ val d a = Some xa /\ val d c = Some xc /\
        xa + weight e <= xc /\ (c = start -> xc < 0);
    i_none : forall c, In c nodes -> val p c = None ->
      val d c = None \/ c = start /\ val d c = Some 0;
    i_chain : NoNeg -> forall c, In c nodes -> val d c <> None -> Chain p c
  }.

  Lemma gain_some : forall d a e, gain d (a, e) = true ->
    exists x, val d a = Some x /\ forall y, val d (tgt e) = Some y -> x + weight e < y.
  Proof.
    clear. intros d a e. unfold gain. cbn [fst snd].
    destruct (val d a) as [x|]; cbn [inf_add option_map inf_lt]; [|discriminate].
    intros HG. exists x. split; auto. intros y Hy. rewrite Hy in HG. lia.
  Qed.

  Lemma gr_in : forall a q k c, GR a q k c -> In a nodes -> In c nodes /\ incl q nodes.
  Proof.
    induction 1 as [c|a e q k b He HR IH]; intros Ha.
    - split; auto. intros x [<-|[]]; auto.
    - destruct (IH (INN a e Ha He)) as [H1 H2]. split; auto. intros x [<-|Hx]; auto.
  Qed.

  (** Following the predecessors back to [c], or to the start without meeting [c]. *)
  Lemma chain_meets : forall d p, Inv d p -> forall c o, In c nodes -> forall a, In a nodes ->
    val d a <> None -> Chain p a ->
    (exists q k xc xa, GR c q k a /\ val d c = Some xc /\ val d a = Some xa /\ xc + k <= xa) \/
    Chain (list_set p (idx c) (Some o)) a.
  Proof.
    intros d p I c o Hc a Ha Hda HC. revert Ha Hda.
    assert (SELF : forall u, val d u <> None -> u = c ->
      exists q k xc xa, GR c q k u /\ val d c = Some xc /\ val d u = Some xa /\ xc + k <= xa).
    { intros u Hd ->. destruct (val d c) as [x|] eqn:E; [|congruence].
      exists [c], 0, x, x. repeat split; auto; try lia. constructor. }
    induction HC as [HN|a b Hb Hp HC IH]; intros Ha Hda.
    - destruct (dec start c) as [E|N]; [left; apply SELF; auto|].
      right. apply chain_start. rewrite val_set by (auto; apply I). destruct (dec start c); [contradiction|auto].
    - destruct (dec a c) as [E|N]; [left; apply SELF; auto|].
      destruct (i_pred _ _ I a b Ha Hp) as (_ & e & xb & xa & He & Ht & D1 & D2 & HW & _).
      destruct IH as [(q & k & xc & xb' & HR & E1 & E2 & E3)|HC']; auto; [congruence| |].
      + left. rewrite D1 in E2. injection E2 as <-. exists (q ++ [tgt e]), (k + weight e), xc, xa.
        split; [|split; [auto|split; [auto|lia]]]. rewrite <- Ht.
        eapply gr_app; [exact HR|]. apply gr_one; auto.
      + right. eapply chain_step; [exact Hb| |exact HC'].
        rewrite val_set by (auto; apply I). destruct (dec a c); [contradiction|auto].
  Qed.

  Lemma relax_inv : forall d p up a e, Inv d p -> In a nodes -> In e (out a) ->
    let st := relax (d, p, up) (a, e) in
    Inv (fst (fst st)) (snd (fst st)) /\
    (forall c y, In c nodes -> ole (val d c) y -> ole (val (fst (fst st)) c) y) /\
    (forall y, ole (val d a) y -> ole (val (fst (fst st)) (tgt e)) (y + weight e)).
  Proof.
    intros d p up a e I Ha He. pose proof (INN a e Ha He) as Ht. unfold relax. cbn [fst snd].
    destruct (gain d (a, e)) eqn:EG; cbn zeta; cbn [fst snd].
    2:{ split; auto. split; auto. intros y. unfold gain in EG. cbn [fst snd] in EG.
        destruct (val d a) as [x|]; cbn [ole inf_add option_map inf_lt] in *; [|contradiction].
        destruct (val d (tgt e)) as [z|]; cbn [ole]; [lia|discriminate]. }
    destruct (gain_some d a e EG) as (xa & Da & Hlt).
    set (w := weight e) in *. set (t := tgt e) in *.
    assert (VD : forall c, In c nodes -> val (list_set d (idx t) (inf_add (val d a) w)) c
      = if dec c t then Some (xa + w) else val d c).
    { intros c Hc. rewrite val_set by (auto; apply I). rewrite Da. reflexivity. }
    assert (VP : forall c, In c nodes -> val (list_set p (idx t) (Some a)) c
      = if dec c t then Some a else val p c) by (intros c Hc; apply val_set; auto; apply I).
    (* a loop of one edge that gains *)
    assert (LOW : forall c y, In c nodes -> val d c = Some y -> exists y',
      (if dec c t then Some (xa + w) else val d c) = Some y' /\ y' <= y /\ (c = t -> y' < y)).
    { intros c y Hc Hy. destruct (dec c t) as [->|N].
      - exists (xa + w). specialize (Hlt y Hy). repeat split; auto; lia.
      - exists y. repeat split; auto; try lia. contradiction. }
    split; [constructor|split].
    - rewrite list_set_length. apply I.
    - rewrite list_set_length. apply I.
    - intros c x Hc. rewrite VD by auto. destruct (dec c t) as [->|N]; [|apply (i_way _ _ I); auto].
      intros [= <-]. destruct (i_way _ _ I a xa Ha Da) as (q & HQ). exists (q ++ [tgt e]).
      eapply gr_app; [exact HQ|]. apply gr_one; auto.
    - assert (HS : exists y, val d start = Some y /\ y <= 0).
      { pose proof (i_start _ _ I) as HS. destruct (val d start) as [y|]; [eauto|contradiction]. }
      destruct HS as (y & Ey & Hy0). rewrite VD by auto.
      destruct (LOW start y Hs Ey) as (y' & -> & Hy & _). cbn [ole] in *. lia.
    - intros c b Hc. rewrite VP by auto. destruct (dec c t) as [->|N].
      + intros [= <-]. split; auto.
        destruct (LOW a xa Ha Da) as (xa' & E1 & E2 & _).
        exists e, xa', (xa + w). rewrite !VD by auto. destruct (dec t t) as [_|]; [|congruence].
        repeat split; auto; [fold w; lia|]. intros E.
        pose proof (i_start _ _ I) as HS. rewrite <- E in HS. destruct (val d t) as [y|] eqn:Ey; [|contradiction].
        specialize (Hlt y eq_refl). cbn [ole] in HS. lia.
      + intros HP. destruct (i_pred _ _ I c b Hc HP) as (Hb & e' & xb & xc & H1 & H2 & H3 & H4 & H5 & H6).
        split; auto. destruct (LOW b xb Hb H3) as (xb' & F1 & F2 & _).
        exists e', xb', xc. rewrite !VD by auto. destruct (dec c t); [contradiction|].
        repeat split; auto. lia.
    - intros c Hc. rewrite VP, VD by auto. destruct (dec c t); [discriminate|]. apply (i_none _ _ I); auto.
    - intros NN. destruct (chain_meets d p I t a Ht a Ha) as [(q & k & xt & xa' & HR & E1 & E2 & E3)|HC];
        [congruence|apply (i_chain _ _ I NN); auto; congruence| |].
      + exfalso. rewrite Da in E2. injection E2 as <-. specialize (Hlt xt E1).
        destruct (i_way _ _ I t xt Ht E1) as (q0 & HQ).
        assert (HL : GR t (q ++ [tgt e]) (k + weight e) (tgt e)).
        { eapply gr_app; [exact HR|]. apply gr_one; auto. }
        specialize (NN t q0 xt _ _ HQ HL). fold w in NN. lia.
      + assert (ALL : forall c, In c nodes -> Chain p c -> Chain (list_set p (idx t) (Some a)) c).
        { intros c Hc H. revert Hc. induction H as [HN|c b Hb HP HCb IH]; intros Hc.
          - destruct (dec start t) as [E|N].
            + rewrite E. eapply chain_step; [exact Ha| |exact HC]. rewrite VP by auto.
              destruct (dec t t); congruence.
            + apply chain_start. rewrite VP by auto. destruct (dec start t); [contradiction|auto].
          - destruct (dec c t) as [->|N].
            + eapply chain_step; [exact Ha| |exact HC]. rewrite VP by auto. destruct (dec t t); congruence.
            + eapply chain_step; [exact Hb| |apply IH; auto]. rewrite VP by auto.
              destruct (dec c t); [contradiction|auto]. }
        intros c Hc. rewrite VD by auto. destruct (dec c t) as [->|N]; intros HX.
        * eapply chain_step; [exact Ha| |exact HC]. rewrite VP by auto. destruct (dec t t); congruence.
        * apply ALL; auto. apply (i_chain _ _ I NN); auto.
    - intros c y Hc HO. rewrite VD by auto. destruct (val d c) as [z|] eqn:Ez; [|contradiction].
      destruct (LOW c z Hc Ez) as (z' & HE & Hz & _). rewrite Ez in HE. cbn [ole] in HO.
      destruct (dec c t); [injection HE as <-|]; cbn [ole]; lia.
    - intros y HO. rewrite VD by auto. destruct (dec t t) as [_|]; [|congruence].
      rewrite Da in HO. cbn [ole] in *. lia.
  Qed.

  Lemma fold_inv : forall l st, (forall x, In x l -> In x all_edges) ->
    Inv (fst (fst st)) (snd (fst st)) ->
    let st' := fold_left relax l st in
    Inv (fst (fst st')) (snd (fst st')) /\
    (forall c y, In c nodes -> ole (val (fst (fst st)) c) y -> ole (val (fst (fst st')) c) y) /\
    (forall a e y, In (a, e) l -> ole (val (fst (fst st)) a) y ->
       ole (val (fst (fst st')) (tgt e)) (y + weight e)).
  Proof.
    induction l as [|[a e] l IH]; intros [[d p] up] Hl I; cbn zeta.
    - split; auto. split; auto. intros a e y [].
    - cbn [fold_left fst snd] in *. destruct (proj1 (in_all a e) (Hl _ (or_introl eq_refl))) as [Ha He].
      destruct (relax_inv d p up a e I Ha He) as (I1 & M1 & R1).
      destruct (IH (relax (d, p, up) (a, e))) as (I2 & M2 & R2); auto.
      { intros x Hx. apply Hl. right; auto. }
      split; auto. split; [intros; apply M2; auto|].
      intros a' e' y [[= -> ->]|Hi] HO.
      + apply M2; auto. apply (INN a' e'); auto.
      + apply (R2 a' e'); auto. apply M1; auto.
        destruct (proj1 (in_all a' e') (Hl _ (or_intror Hi))) as [Ha' _]. auto.
  Qed.

  (** Without an update no edge gains. *)
  Lemma fold_quiet : forall l d p up, snd (fold_left relax l (d, p, up)) = false ->
    up = false /\ fold_left relax l (d, p, up) = (d, p, up) /\ forall x, In x l -> gain d x = false.
  Proof.
    clear. induction l as [|x l IH]; intros d p up HF.
    - cbn in HF. split; auto. split; auto. intros x [].
    - cbn [fold_left] in HF. unfold relax at 2 in HF. cbn [fold_left]. unfold relax at 2.
      destruct (gain d x) eqn:EG.
      + destruct (IH _ _ _ HF) as (E & _). discriminate.
      + destruct (IH _ _ _ HF) as (E1 & E2 & E3). split; auto. split; auto.
        intros y [<-|Hy]; auto.
  Qed.

  Definition Within (k : nat) (d : list (option Z)) : Prop :=
    forall q x c, GR start q x c -> (length q <= k)%nat -> ole (val d c) x.

  Lemma turns_ok : forall k j d p up, Inv d p -> Within j d ->
    exists d' p' up', bf_turns to_index ids ids_next edges edges_next target weight k (d, p, up)
      = Ok (d', p', up') /\ Inv d' p' /\
      (Within (j + k) d' \/ forall x, In x all_edges -> gain d' x = false).
  Proof.
    induction k as [|k IH]; intros j d p up I W.
    - exists d, p, up. split; [reflexivity|]. split; auto. left. rewrite Nat.add_0_r. auto.
    - cbn [bf_turns].
      destruct (turn_ok d p up) as [-> SZ]; [apply I|apply I|]. cbn [bind].
      destruct (fold_inv all_edges (d, p, false)) as (I' & M' & R'); auto. cbn [fst snd] in *.
      destruct (snd (fold_left relax all_edges (d, p, false))) eqn:EU.
      + destruct (fold_left relax all_edges (d, p, false)) as [[d1 p1] up1]. cbn [fst snd] in *.
        destruct (IH (S j) d1 p1 up1 I') as (d2 & p2 & up2 & H1 & H2 & H3).
        { intros q x c HR HL.
          destruct (gr_in _ _ _ _ HR Hs) as [Hc _].
          destruct (gr_last _ _ _ _ _ _ _ HR) as [(-> & -> & ->)|(q' & b & e & x' & -> & HR' & He & <- & ->)].
          - pose proof (i_start _ _ I') as HS. exact HS.
          - destruct (gr_in _ _ _ _ HR' Hs) as [Hb _].
            apply (R' b e); [apply in_all; auto|]. apply (W q'); auto.
            rewrite app_length in HL. cbn [length] in HL. lia. }
        exists d2, p2, up2. split; auto. split; auto. rewrite Nat.add_succ_r. exact H3.
      + destruct (fold_quiet _ _ _ _ EU) as (_ & E2 & E3). rewrite E2.
        exists d, p, false. split; auto.
  Qed.

  (** Where no edge gains, the costs are least. *)
  Lemma settled : forall d p, Inv d p -> (forall x, In x all_edges -> gain d x = false) ->
    forall a q k c, GR a q k c -> In a nodes -> forall y, ole (val d a) y -> ole (val d c) (y + k).
  Proof.
    intros d p I HG a q k c HR. induction HR as [c|a e q k b He HR IH]; intros Ha y HO.
    - rewrite Z.add_0_r. auto.
    - rewrite Z.add_assoc. apply IH; [apply (INN a e); auto|].
      specialize (HG (a, e) (proj2 (in_all a e) (conj Ha He))). unfold gain in HG. cbn [fst snd] in HG.
      destruct (val d a) as [x|]; [|contradiction]. cbn [inf_add option_map inf_lt ole] in *.
      destruct (val d (tgt e)) as [z|]; [|discriminate]. cbn [ole]. lia.
  Qed.

  Notation run := (bellman_ford count bound to_index ids ids_next edges edges_next target weight start).

  Lemma at_val : forall X (l : list (option X)) c, length l = n -> In c nodes ->
    at_index to_index l c = Some (val l c).
  Proof.
    intros X l c HL Hc. unfold at_index, val. destruct (idx_ok c Hc) as (-> & Lc & _).
    rewrite Nat2Z.id. apply nth_error_nth'. lia.
  Qed.

  Lemma bellman_ok : exists r, run = Ok r /\
    Answered GR (@at_index C to_index) nodes start r.
  Proof.
    set (d0 := list_set (repeat None n) (idx start) (Some 0)).
    set (p0 := repeat (@None C) n).
    assert (L0 : length (repeat (@None Z) n) = n) by apply repeat_length.
    assert (V0 : forall c, val (repeat (@None Z) n) c = None).
    { intros c. unfold val. destruct (Nat.lt_ge_cases (idx c) n).
      - apply nth_repeat.
      - apply nth_overflow. rewrite L0. lia. }
    assert (VP0 : forall c, val p0 c = None) by (intros c; unfold val, p0; apply nth_repeat).
    assert (VD0 : forall c, In c nodes -> val d0 c = if dec c start then Some 0 else None).
    { intros c Hc. unfold d0. rewrite val_set by auto. rewrite V0. reflexivity. }
    assert (I0 : Inv d0 p0).
    { constructor.
      - unfold d0. rewrite list_set_length. auto.
      - apply repeat_length.
      - intros c x Hc. rewrite VD0 by auto. destruct (dec c start) as [->|]; [|discriminate].
        intros [= <-]. exists [start]. constructor.
      - rewrite VD0 by auto. destruct (dec start start); [cbn; lia|congruence].
      - intros c a Hc. rewrite VP0. discriminate.
      - intros c Hc _. rewrite VD0 by auto. destruct (dec c start); auto.
      - intros _ c Hc. rewrite VD0 by auto. destruct (dec c start) as [->|]; [|congruence].
        intros _. apply chain_start. apply VP0. }
    assert (W0 : Within 1 d0).
    { intros q x c HR HL. destruct (gr_last _ _ _ _ _ _ _ HR) as [(-> & -> & ->)|(q' & b & e & k & -> & HR' & _)].
      - apply I0.
      - destruct (gr_cons _ _ _ _ _ _ _ HR') as (q1 & ->). rewrite app_length in HL. cbn [length] in HL. lia. }
    destruct (turns_ok (Z.to_nat (Z.of_nat n - 1)) 1 d0 p0 false I0 W0) as (d & p & up & ET & I & HW).
    assert (POS : (1 <= n)%nat) by (destruct nodes; [destruct Hs|cbn [length]; lia]).
    replace (1 + Z.to_nat (Z.of_nat n - 1))%nat with n in HW by lia.
    exists (if existsb (gain d) all_edges then None else Some (d, p)). split.
    { unfold bellman_ford, bf_relax. rewrite BND. cbn [bind]. rewrite Nat2Z.id.
      destruct (idx_ok start Hs) as (-> & Ls & _). cbn [bind]. unfold row_set at 1.
      rewrite (get_val _ (repeat None n) start) by auto. cbn [bind]. rewrite Nat2Z.id, CNT. cbn [bind].
      fold d0 p0. rewrite ET. cbn [bind].
      rewrite (any_exact _ _ _ _ _ _ IDS FEW).
      assert (GO : forall l, incl l nodes -> any_outcome (fun i =>
        let! it := edges i in any_of edges_next it (fun e =>
          let! j := target e in improves to_index d i j (weight e))) l
        = Ok (existsb (gain d) (flat_map (fun a => map (pair a) (out a)) l))).
      { intros l Hl. rewrite (any_pure _ _ (fun a => existsb (gain d) (map (pair a) (out a)))).
        - f_equal. clear. induction l as [|a l IH]; [reflexivity|]. cbn [existsb flat_map].
          rewrite existsb_app, IH. reflexivity.
        - intros a Ha. apply Hl in Ha. destruct (ED a Ha) as (it & -> & HD). cbn [bind].
          rewrite (any_exact _ _ _ _ _ _ HD (DEG a Ha)).
          rewrite (any_pure _ _ (fun e => gain d (a, e))).
          + f_equal. clear. induction (out a) as [|e l IH]; [reflexivity|]. cbn [existsb map].
            rewrite IH. reflexivity.
          + intros e He. rewrite (TGT a e Ha He). cbn [bind]. apply improves_ok; auto. apply I. }
      rewrite GO by apply incl_refl. cbn [bind]. fold all_edges. reflexivity. }
    destruct (existsb (gain d) all_edges) eqn:EX.
    - (* an edge gains: a cycle is negative *)
      cbn [Answered]. apply existsb_exists in EX. destruct EX as ([a e] & Hi & HG).
      destruct HW as [HW|HQ]; [|rewrite HQ in HG; [discriminate|auto]].
      apply in_all in Hi. destruct Hi as [Ha He].
      destruct (gain_some _ _ _ HG) as (xa & Da & Hlt).
      destruct (i_way _ _ I a xa Ha Da) as (q & HQ).
      (* the route over the edge is too long to be without repetition *)
      assert (HR : GR start (q ++ [tgt e]) (xa + weight e) (tgt e)).
      { eapply gr_app; [exact HQ|]. apply gr_one; auto. }
      assert (CUT : forall m q x c, (length q <= m)%nat -> GR start q x c ->
        NegativeCycle GR start \/ exists q' x', GR start q' x' c /\ (length q' <= n)%nat /\ x' <= x).
      { induction m as [|m IH]; intros q1 x c HL H1.
        - destruct (gr_cons _ _ _ _ _ _ _ H1) as (q' & ->). cbn [length] in HL. lia.
        - destruct (NoDup_dec dec q1) as [ND|DUP].
          + right. exists q1, x. split; auto. split; [|lia]. apply NoDup_incl_length; auto.
            apply (gr_in _ _ _ _ H1 Hs).
          + destruct (dup_split dec q1 DUP) as (b & l1 & l2 & l3 & ->).
            destruct (gr_split _ _ _ _ _ _ _ _ _ H1) as (k1 & k2 & G1 & G2 & ->).
            change (b :: l2 ++ b :: l3) with ((b :: l2) ++ b :: l3) in G2.
            destruct (gr_split _ _ _ _ _ _ _ _ _ G2) as (k3 & k4 & G3 & G4 & ->).
            destruct (Z_lt_le_dec k3 0) as [Hneg|Hpos].
            * left. exists b, (l1 ++ [b]), k1, ((b :: l2) ++ [b]), k3. auto.
            * pose proof (gr_app _ _ _ _ _ _ _ G1 _ _ _ G4) as G5.
              destruct (IH ((l1 ++ [b]) ++ l3) (k1 + k4) c) as [|(q' & x' & Q1 & Q2 & Q3)]; auto.
              { rewrite !app_length in *. cbn [length] in *. rewrite !app_length in *. cbn [length] in *. lia. }
              right. exists q', x'. split; auto. split; auto. lia. }
      destruct (CUT _ _ _ _ (le_n _) HR) as [|(q' & x' & Q1 & Q2 & Q3)]; auto.
      exfalso. pose proof (HW _ _ _ Q1 Q2) as HO. unfold gain in HG. cbn [fst snd] in HG.
      rewrite Da in HG. cbn [inf_add option_map inf_lt] in HG.
      destruct (val d (tgt e)) as [z|] eqn:Ez; [|contradiction]. cbn [ole] in HO. lia.
    - (* no edge gains *)
      cbn [Answered].
      assert (HG : forall x, In x all_edges -> gain d x = false).
      { intros x Hx. destruct (gain d x) eqn:E; auto. rewrite <- EX. symmetry.
        apply existsb_exists. eauto. }
      assert (LEAST : forall q k c, GR start q k c -> ole (val d c) k).
      { intros q k c HR. replace k with (0 + k) by lia.
        eapply (settled d p I HG); eauto. apply I. }
      assert (NN : NoNeg).
      { intros c q x q' k HR HC. destruct (Z_lt_le_dec k 0) as [Hk|]; auto. exfalso.
        destruct (gr_in _ _ _ _ HR Hs) as [Hc _]. pose proof (LEAST _ _ _ HR) as HO.
        destruct (val d c) as [y|] eqn:Ey; [|contradiction].
        assert (HY : ole (val d c) y) by (rewrite Ey; cbn; lia).
        pose proof (settled d p I HG _ _ _ _ HC Hc y HY) as H2. rewrite Ey in H2. cbn [ole] in H2. lia. }
      split.
      { intros (c & q & x & q' & k & H1 & H2 & H3). specialize (NN _ _ _ _ _ H1 H2). lia. }
      assert (S0 : val d start = Some 0).
      { pose proof (i_start _ _ I) as HS. destruct (val d start) as [y|] eqn:Ey; [|contradiction].
        cbn [ole] in HS. destruct (i_way _ _ I start y Hs Ey) as (q & HQ).
        pose proof (NN start [start] 0 q y (gr_here _ _ _ _) HQ). f_equal. lia. }
      intros c Hc. rewrite (at_val _ d c), (at_val _ p c) by (auto; apply I).
      destruct (val d c) as [x|] eqn:Ex.
      + left.
        assert (TR : forall c, In c nodes -> forall x, val d c = Some x -> Chain p c ->
          exists q, Traced (at_index to_index p) start c q /\ GR start q x c).
        { clear c Hc x Ex. intros c Hc x Ex HC. revert Hc x Ex.
          induction HC as [HN|c a Ha HP HC IH]; intros Hc x Ex.
          - rewrite S0 in Ex. injection Ex as <-. exists [start]. split; [|constructor].
            constructor. rewrite (at_val _ p) by (auto; apply I). congruence.
          - destruct (i_pred _ _ I c a Hc HP) as (_ & e & xa & xc & He & Et & D1 & D2 & HW' & _).
            rewrite Ex in D2. injection D2 as <-.
            destruct (IH Ha xa D1) as (q & T1 & T2). exists (q ++ [c]). split.
            + eapply traced_step; [|exact T1]. rewrite (at_val _ p) by (auto; apply I). congruence.
            + assert (HR : GR start (q ++ [tgt e]) (xa + weight e) (tgt e))
                by (eapply gr_app; [exact T2|apply gr_one; auto]).
              pose proof (LEAST _ _ _ HR) as HO. rewrite Et in HO, HR. rewrite Ex in HO. cbn [ole] in HO.
              replace x with (xa + weight e) by lia. exact HR. }
        destruct (TR c Hc x Ex) as (q & T1 & T2); [apply (i_chain _ _ I NN); auto; congruence|].
        exists x, q. split; auto. split; auto. split; auto.
        intros q' k HR. pose proof (LEAST _ _ _ HR) as HO. rewrite Ex in HO. exact HO.
      + right. split; auto. split.
        * f_equal. destruct (val p c) as [a|] eqn:Ep; auto.
          destruct (i_pred _ _ I c a Hc Ep) as (_ & e & xa & xc & _ & _ & _ & D2 & _). congruence.
        * intros q k HR. pose proof (LEAST _ _ _ HR) as HO. rewrite Ex in HO. exact HO.
  Qed.
End Bellman.
