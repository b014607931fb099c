(** * SimplePathsProofs: [all_simple_paths] lists the simple paths, over any finite graph. *)

From Verif Require Import Machine Traverse Astar Spec11 Basics TraverseProofs AnySearch SimplePaths
  Spec26.
From Coq Require Import ZifyBool ZifyNat.

Section Occurrences.
  Context {X Y : Type} (dx : forall a b : X, {a = b} + {a <> b}) (dy : forall a b : Y, {a = b} + {a <> b}).

  Lemma count_flat : forall (f : X -> list Y) l c p,
    (forall x, In x l -> x <> c -> ~ In p (f x)) ->
    count_occ dy (flat_map f l) p = (count_occ dx l c * count_occ dy (f c) p)%nat.
  Proof.
    intros f l c p. induction l as [|x l IH]; intros HX; cbn [flat_map count_occ]; auto.
    rewrite count_occ_app. rewrite IH by (intros y Hy; apply HX; right; auto).
    destruct (dx x c) as [->|Hne]; [lia|].
    rewrite (proj1 (count_occ_not_In dy (f x) p)); [lia|]. apply HX; auto. left; auto.
  Qed.
End Occurrences.

Section Paths.
  Context {C It : Type} (eqb : C -> C -> bool) (dec : forall a b : C, {a = b} + {a <> b})
    (nb : C -> It) (nb_next : C -> It -> outcome (option C * It)) (to : C)
    (nodes : list C) (nbs : C -> list C) (mx mn : Z)
    (EQ : forall a b, eqb a b = true <-> a = b)
    (NB : forall c, In c nodes -> Drains (nb_next c) (nb c) (nbs c))
    (DEG : forall c, In c nodes -> Z.of_nat (length (nbs c)) + 1 < 2 ^ 72)
    (INN : forall a b, In a nodes -> In b (nbs a) -> In b nodes).

  Notation round := (paths_round eqb nb nb_next to mx mn).
  Notation yields := (Yields eqb nb nb_next to mx mn).
  Notation len l := (Z.of_nat (length l)).

  (** What is found below [vis], the last of which has the neighbours [l] left. *)
  Fixpoint found (k : nat) (vis : list C) (l : list C) {struct k} : list (list C) :=
    match k with
    | O => []
    | S k =>
        flat_map (fun c =>
          if eqb c to then if mn <=? len vis then [vis ++ [to]] else []
          else if (len vis <? mx) && negb (existsb (eqb c) vis)
               then found k (vis ++ [c]) (nbs c) else []) l
    end.

  Lemma found_cons : forall k vis c l,
    found (S k) vis (c :: l) = found (S k) vis [c] ++ found (S k) vis l.
  Proof. intros. cbn [found flat_map]. rewrite app_nil_r. reflexivity. Qed.

  Lemma in_vis : forall c vis, existsb (eqb c) vis = true <-> In c vis.
  Proof.
    intros c vis. rewrite existsb_exists. split.
    - intros (x & Hx & E). apply EQ in E. subst; auto.
    - intros H. exists c. split; auto. apply EQ; auto.
  Qed.

  Lemma yields_later : forall st st' l, round st = Ok (inl st') -> yields st' l -> yields st l.
  Proof.
    intros st st' l E HY. inversion HY as [s s' HR|s p s' l' HR HY']; subst.
    - eapply yields_end. eapply returns_later; eauto.
    - eapply yields_path; [|exact HY']. eapply returns_later; eauto.
  Qed.

  Lemma drains_nil_inv : forall St X (next : St -> outcome (option X * St)) it, Drains next it [] ->
    exists it', next it = Ok (None, it').
  Proof. intros St X next it (a & b & HC & HN & _). inversion HC; subst. eauto. Qed.
  Lemma drains_cons_inv : forall St X (next : St -> outcome (option X * St)) it x l,
    Drains next it (x :: l) -> exists it', next it = Ok (Some x, it') /\ Drains next it' l.
  Proof.
    intros St X next it x l (a & b & HC & HN & HF). inversion HC; subst.
    eexists. split; [eassumption|]. exists a, b. auto.
  Qed.

  Lemma any_ok : forall n it l, Drains (nb_next n) it l -> len l + 1 < 2 ^ 72 ->
    (exists l1 l2 it', l = l1 ++ to :: l2 /\ ~ In to l1 /\ any_is_to eqb nb_next to n it = Ok (true, it') /\
       Drains (nb_next n) it' l2) \/
    (~ In to l /\ exists it', any_is_to eqb nb_next to n it = Ok (false, it')).
  Proof.
    intros n it l HD HL. unfold any_is_to.
    set (body := fun it0 => let! (x, it') := nb_next n it0 in
      match x with
      | None => Ok (inr (false, it'))
      | Some v => if eqb v to then Ok (inr (true, it')) else Ok (inl it')
      end).
    assert (HR : (exists l1 l2 it' k, l = l1 ++ to :: l2 /\ ~ In to l1 /\ (k <= length l)%nat /\
        Rounds body k it (Ok (true, it')) /\ Drains (nb_next n) it' l2) \/
      (~ In to l /\ exists it' k, (k <= length l)%nat /\ Rounds body k it (Ok (false, it')))).
    { clear HL. revert it HD. induction l as [|x l IH]; intros it HD.
      - right. split; [intros []|]. destruct (drains_nil_inv _ _ _ _ HD) as (it' & E).
        exists it', 0%nat. split; [cbn; lia|]. apply R_done. unfold body. rewrite E. reflexivity.
      - destruct (drains_cons_inv _ _ _ _ _ _ HD) as (it' & E & HD'). destruct (eqb x to) eqn:Ex.
        + left. exists [], l, it', 0%nat. pose proof (proj1 (EQ x to) Ex). subst x.
          split; auto. split; [intros []|]. split; [lia|]. split; auto.
          apply R_done. unfold body. rewrite E. cbn [bind]. rewrite Ex. reflexivity.
        + assert (Hb : body it = Ok (inl it')) by (unfold body; rewrite E; cbn [bind]; rewrite Ex; auto).
          assert (Hx : x <> to) by (intros H; apply EQ in H; congruence).
          destruct (IH it' HD') as [(l1 & l2 & it2 & k & -> & H1 & H2 & H3 & H4)|(H1 & it2 & k & H2 & H3)].
          * left. exists (x :: l1), l2, it2, (S k). split; auto. split; [intros [H|H]; auto|].
            split; [cbn [app length] in *; lia|]. split; auto. eapply R_more; eauto.
          * right. split; [intros [H|H]; auto|]. exists it2, (S k). split; [cbn [length]; lia|].
            eapply R_more; eauto. }
    destruct HR as [(l1 & l2 & it' & k & H0 & H1 & H2 & H3 & H4)|(H1 & it' & k & H2 & H3)].
    - left. exists l1, l2, it'. split; auto. split; auto. split; auto.
      eapply loop_rounds; [exact H3|lia].
    - right. split; auto. exists it'. eapply loop_rounds; [exact H3|lia].
  Qed.

  (** Past the limit only [to] matters. *)
  Lemma found_deep : forall k vis l, mx <= len vis -> ~ In to l -> found (S k) vis l = [].
  Proof.
    intros k vis l Hm. induction l as [|c l IH]; intros HN; auto.
    rewrite found_cons, IH by (intros H; apply HN; right; auto).
    cbn [found flat_map]. destruct (eqb c to) eqn:E.
    { apply EQ in E. exfalso. apply HN. left; auto. }
    replace (len vis <? mx) with false by (symmetry; apply Z.ltb_ge; lia). reflexivity.
  Qed.
  Lemma found_low : forall k vis l, mx <= len vis -> len vis < mn -> found (S k) vis l = [].
  Proof.
    intros k vis l Hm Hn. induction l as [|c l IH]; auto.
    rewrite found_cons, IH. cbn [found flat_map].
    replace (mn <=? len vis) with false by (symmetry; apply Z.leb_gt; lia).
    replace (len vis <? mx) with false by (symmetry; apply Z.ltb_ge; lia).
    destruct (eqb c to); reflexivity.
  Qed.

  Lemma run_ok : forall k vis n it l rest tail, (length nodes - length vis < k)%nat ->
    NoDup vis -> incl vis nodes -> In n nodes -> incl l nodes -> len l + 1 < 2 ^ 72 ->
    Drains (nb_next n) it l ->
    yields (mkP (removelast vis) rest) tail ->
    yields (mkP vis ((n, it) :: rest)) (found k vis l ++ tail).
  Proof.
    induction k as [|k IHk]; [intros; lia|].
    intros vis n it l rest tail HK HN HI Hn. revert it.
    remember (length l) as q eqn:Hq. revert l Hq.
    induction q as [q IHq] using (well_founded_induction lt_wf). intros l Hq it HL HDEG HD HT.
    destruct l as [|c l].
    - destruct (drains_nil_inv _ _ _ _ HD) as (it' & E).
      eapply yields_later; [|exact HT]. unfold paths_round. cbn [p_stack p_visited]. rewrite E. reflexivity.
    - destruct (drains_cons_inv _ _ _ _ _ _ HD) as (it' & E & HD').
      assert (HL' : incl l nodes) by (intros y Hy; apply HL; right; auto).
      assert (Hc : In c nodes) by (apply HL; left; auto).
      cbn [length] in Hq, HDEG.
      assert (HDEG' : len l + 1 < 2 ^ 72) by lia.
      assert (HREC : yields (mkP vis ((n, it') :: rest)) (found (S k) vis l ++ tail))
        by (apply (IHq (length l)); auto; lia).
      destruct (len vis <? mx) eqn:Em.
      + rewrite found_cons, <- app_assoc. destruct (eqb c to) eqn:Ec.
        * destruct (mn <=? len vis) eqn:En.
          -- replace (found (S k) vis [c]) with [vis ++ [to]]
               by (cbn [found flat_map]; rewrite Ec, En; reflexivity). cbn [app].
             eapply yields_path; [|exact HREC]. apply returns_now. unfold paths_round.
             cbn [p_stack p_visited]. rewrite E. cbn [bind]. rewrite Em, Ec, En. reflexivity.
          -- replace (found (S k) vis [c]) with (@nil (list C))
               by (cbn [found flat_map]; rewrite Ec, En; reflexivity). cbn [app].
             eapply yields_later; [|exact HREC]. unfold paths_round.
             cbn [p_stack p_visited]. rewrite E. cbn [bind]. rewrite Em, Ec, En. reflexivity.
        * destruct (existsb (eqb c) vis) eqn:Ev.
          -- replace (found (S k) vis [c]) with (@nil (list C))
               by (cbn [found flat_map]; rewrite Ec, Em, Ev; reflexivity).
             eapply yields_later; [|exact HREC]. unfold paths_round.
             cbn [p_stack p_visited]. rewrite E. cbn [bind]. rewrite Em, Ec, Ev. reflexivity.
          -- replace (found (S k) vis [c]) with (found k (vis ++ [c]) (nbs c))
               by (cbn [found flat_map]; rewrite Ec, Em, Ev; cbn [andb negb]; rewrite app_nil_r; reflexivity).
             assert (Hcv : ~ In c vis) by (intros H; apply in_vis in H; congruence).
             assert (HN' : NoDup (vis ++ [c])).
             { apply (NoDup_Add (a := c) (l := vis)); [|split; auto].
               rewrite <- (app_nil_r vis) at 1. apply Add_app. }
             assert (HI' : incl (vis ++ [c]) nodes).
             { intros y Hy. apply in_app_or in Hy. destruct Hy as [Hy|[<-|[]]]; auto. }
             eapply yields_later; [|apply (IHk (vis ++ [c]) c (nb c) (nbs c) ((n, it') :: rest))]; auto.
             ++ unfold paths_round. cbn [p_stack p_visited]. rewrite E. cbn [bind].
                rewrite Em, Ec, Ev. reflexivity.
             ++ pose proof (NoDup_incl_length HN' HI') as HLen. rewrite app_length in *. cbn [length] in *. lia.
             ++ intros y Hy. eapply INN; eauto.
             ++ rewrite removelast_last. exact HREC.
      + assert (Hmx : mx <= len vis) by lia. destruct (eqb c to) eqn:Ec.
        * destruct (mn <=? len vis) eqn:En.
          -- rewrite found_cons, <- app_assoc. replace (found (S k) vis [c]) with [vis ++ [to]]
               by (cbn [found flat_map]; rewrite Ec, En; reflexivity). cbn [app].
             eapply yields_path; [|exact HREC]. apply returns_now. unfold paths_round.
             cbn [p_stack p_visited]. rewrite E. cbn [bind]. rewrite Em, Ec. cbn [bind andb]. rewrite En. reflexivity.
          -- rewrite found_low by lia. eapply yields_later; [|exact HT]. unfold paths_round.
             cbn [p_stack p_visited]. rewrite E. cbn [bind]. rewrite Em, Ec. cbn [bind andb]. rewrite En. reflexivity.
        * assert (Hct : c <> to) by (intros H; apply EQ in H; congruence).
          destruct (any_ok n it' l HD' HDEG') as [(l1 & l2 & it2 & -> & H1 & H2 & H3)|(H1 & it2 & H2)].
          -- destruct (mn <=? len vis) eqn:En.
             ++ assert (EF : found (S k) vis (c :: l1 ++ to :: l2) = (vis ++ [to]) :: found (S k) vis l2).
                { change (c :: l1 ++ to :: l2) with ((c :: l1) ++ to :: l2).
                  assert (HA : forall a b, found (S k) vis (a ++ b) = found (S k) vis a ++ found (S k) vis b)
                    by (intros; cbn [found]; apply flat_map_app).
                  rewrite HA, (found_deep k vis (c :: l1)), (found_cons k vis to) by
                    (auto; intros [H|H]; auto).
                  cbn [found flat_map app]. rewrite (proj2 (EQ to to) eq_refl), En. reflexivity. }
                rewrite EF. cbn [app]. eapply yields_path.
                ** apply returns_now. unfold paths_round. cbn [p_stack p_visited]. rewrite E. cbn [bind].
                   rewrite Em, Ec, H2. cbn [bind andb]. rewrite En. reflexivity.
                ** rewrite app_length in *. cbn [length] in *.
                   apply (IHq (length l2)); auto; try lia. intros y Hy. apply HL'. apply in_or_app. right; right; auto.
             ++ rewrite found_low by lia. eapply yields_later; [|exact HT].
                unfold paths_round. cbn [p_stack p_visited]. rewrite E. cbn [bind].
                rewrite Em, Ec, H2. cbn [bind andb]. rewrite En. reflexivity.
          -- rewrite found_deep by (auto; intros [H|H]; auto). eapply yields_later; [|exact HT].
             unfold paths_round. cbn [p_stack p_visited]. rewrite E. cbn [bind].
             rewrite Em, Ec, H2. cbn [bind andb]. reflexivity.
  Qed.

  (** ** What that is *)

  Lemma found_form : forall k vis l p, In p (found k vis l) ->
    exists mids, p = vis ++ mids ++ [to] /\ NoDup mids /\ (forall c, In c mids -> ~ In c vis) /\
      ~ In to mids /\ mn <= len vis + len mids /\ (mids <> [] -> len vis + len mids <= mx) /\
      In (hd to mids) l.
  Proof.
    induction k as [|k IH]; intros vis l p Hp; [destruct Hp|]. cbn [found] in Hp.
    apply in_flat_map in Hp. destruct Hp as (c & Hc & Hp). destruct (eqb c to) eqn:Ec.
    - destruct (mn <=? len vis) eqn:En; [|destruct Hp]. destruct Hp as [<-|[]]. exists [].
      apply EQ in Ec. subst c. split; auto. split; [constructor|]. split; [intros c []|]. split; [intros []|].
      split; [cbn; lia|]. split; [congruence|auto].
    - destruct (len vis <? mx) eqn:Em; [|destruct Hp]. destruct (existsb (eqb c) vis) eqn:Ev; [destruct Hp|].
      cbn [andb negb] in Hp. destruct (IH _ _ _ Hp) as (mids & -> & H1 & H2 & H3 & H4 & H5 & H6).
      exists (c :: mids). rewrite <- !app_assoc. split; auto. rewrite app_length in *. cbn [length hd] in *.
      split; [constructor; auto|].
      { intros H. apply (H2 c H). apply in_or_app. right; left; auto. }
      split.
      { intros y [<-|Hy] Hv; [apply in_vis in Hv; congruence|].
        apply (H2 y Hy). apply in_or_app; auto. }
      split; [intros [H|H]; auto; apply EQ in H; congruence|]. split; [lia|]. split; [|auto].
      intros _. destruct mids as [|d mids]; [cbn [length]; lia|].
      assert (d :: mids <> []) by discriminate. specialize (H5 H). cbn [length] in *. lia.
  Qed.

  Lemma found_count : forall mids k vis l, (length nodes - length vis < k)%nat ->
    NoDup vis -> incl vis nodes -> incl l nodes ->
    NoDup mids -> (forall c, In c mids -> ~ In c vis) -> ~ In to mids ->
    mn <= len vis + len mids -> (mids <> [] -> len vis + len mids <= mx) ->
    count_occ (list_eq_dec dec) (found k vis l) (vis ++ mids ++ [to]) =
      (count_occ dec l (hd to mids) * ways dec nbs (mids ++ [to]))%nat.
  Proof.
    induction mids as [|c mids IH]; intros k vis l HK HN HI HL M1 M2 M3 M4 M5.
    - destruct k as [|k]; [lia|]. cbn [found hd app ways].
      rewrite (count_flat dec (list_eq_dec dec) _ l to).
      + rewrite (proj2 (EQ to to) eq_refl). cbn [length] in M4.
        replace (mn <=? len vis) with true by (symmetry; apply Z.leb_le; lia). cbn [count_occ].
        destruct (list_eq_dec dec (vis ++ [to]) (vis ++ [to])) as [_|H]; [lia|congruence].
      + intros x Hx Hne. destruct (eqb x to) eqn:Ex; [apply EQ in Ex; contradiction|].
        destruct ((len vis <? mx) && negb (existsb (eqb x) vis)); [|intros []].
        intros H. apply found_form in H. destruct H as (mids & E & _). rewrite <- !app_assoc in E.
        apply app_inv_head in E. cbn in E. congruence.
    - destruct k as [|k]; [lia|]. cbn [found hd].
      assert (M5' : len vis + len (c :: mids) <= mx) by (apply M5; discriminate). cbn [length] in M5', M4.
      assert (Hct : c <> to) by (intros ->; apply M3; left; auto).
      assert (Hcv : ~ In c vis) by (apply M2; left; auto).
      rewrite (count_flat dec (list_eq_dec dec) _ l c).
      + destruct (eqb c to) eqn:Ec; [apply EQ in Ec; contradiction|].
        replace (len vis <? mx) with true by (symmetry; apply Z.ltb_lt; lia).
        destruct (existsb (eqb c) vis) eqn:Ev; [apply in_vis in Ev; contradiction|]. cbn [andb negb].
        destruct (in_dec dec c l) as [Hcl|Hcl].
        2:{ rewrite (proj1 (count_occ_not_In dec l c) Hcl). reflexivity. }
        f_equal. inversion M1 as [|? ? Hcm M1']; subst.
        assert (HN' : NoDup (vis ++ [c])).
        { apply (NoDup_Add (a := c) (l := vis)); [|split; auto].
          rewrite <- (app_nil_r vis) at 1. apply Add_app. }
        assert (HI' : incl (vis ++ [c]) nodes).
        { intros y Hy. apply in_app_or in Hy. destruct Hy as [Hy|[<-|[]]]; auto. }
        pose proof (NoDup_incl_length HN' HI') as HLen.
        replace (vis ++ (c :: mids) ++ [to]) with ((vis ++ [c]) ++ mids ++ [to]) by (rewrite <- app_assoc; reflexivity).
        rewrite app_length in HLen. cbn [length] in HLen.
        rewrite IH; auto.
        * cbn [app]. destruct mids as [|d mids]; reflexivity.
        * rewrite app_length. cbn [length]. lia.
        * intros y Hy. eapply INN; eauto.
        * intros y Hy Hv. apply in_app_or in Hv. destruct Hv as [Hv|[<-|[]]]; [|contradiction].
          apply (M2 y); auto. right; auto.
        * intros H. apply M3. right; auto.
        * rewrite app_length. cbn [length]. lia.
        * intros _. rewrite app_length. cbn [length]. lia.
      + intros x Hx Hne. destruct (eqb x to) eqn:Ex.
        * destruct (mn <=? len vis); [|intros []]. intros [H|[]]. apply app_inv_head in H. cbn in H. congruence.
        * destruct ((len vis <? mx) && negb (existsb (eqb x) vis)); [|intros []].
          intros H. apply found_form in H. destruct H as (mids' & E & _). rewrite <- !app_assoc in E.
          apply app_inv_head in E. cbn in E. congruence.
  Qed.

  Theorem paths_ok : forall a, In a nodes -> 1 <= mn ->
    exists l, yields (paths_init nb a) l /\
      ListsPaths dec nbs a to (mn - 1) (Some (Z.max 0 (mx - 1))) l.
  Proof.
    intros a Ha Hmn. exists (found (S (length nodes)) [a] (nbs a)). split.
    - rewrite <- (app_nil_r (found _ _ _)). apply run_ok; auto.
      + cbn [length]. lia.
      + constructor; [intros []|constructor].
      + intros y [<-|[]]; auto.
      + intros y Hy. eapply INN; eauto.
      + cbn [removelast]. eapply yields_end. apply returns_now. reflexivity.
    - split.
      + intros p Hp. apply found_form in Hp. destruct Hp as (mids & -> & H1 & H2 & H3 & H4 & H5 & H6).
        cbn [length] in *. exists mids. split; auto. split.
        { constructor; auto. intros H. apply (H2 a H). left; auto. }
        split; auto. split; [lia|]. destruct mids as [|d mids]; [cbn [length]; lia|].
        assert (d :: mids <> []) by discriminate. specialize (H5 H). cbn [length] in *. lia.
      + intros p (mids & -> & H1 & H2 & H3 & H4). inversion H1 as [|? ? Ham HN]; subst.
        change (a :: mids ++ [to]) with ([a] ++ mids ++ [to]).
        rewrite found_count; auto.
        * cbn [app]. destruct mids as [|d mids]; reflexivity.
        * cbn [length]. lia.
        * constructor; [intros []|constructor].
        * intros y [<-|[]]; auto.
        * intros y Hy. eapply INN; eauto.
        * intros c Hc [<-|[]]. contradiction.
        * cbn [length]. lia.
        * intros Hne. destruct mids as [|d mids]; [congruence|]. cbn [length] in *. lia.
  Qed.
End Paths.
