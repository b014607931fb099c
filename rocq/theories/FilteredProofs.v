(** * FilteredProofs: searches on the part of any finite graph that is left by a filter. *)

From Verif Require Import Machine Traverse Astar Dijkstra Clients Filtered Spec4 Spec11 Spec21 Basics
  TraverseProofs AstarProofs DijkstraProofs AnySearch ClientsProofs.
From Coq Require Import ZifyBool ZifyNat.

(** ** [find] *)

Section Find.
  Context {It X : Type} (next : It -> outcome (option X * It)) (f : X -> outcome bool)
    (fb : X -> bool).

  Lemma find_step : forall it l, Drains next it l -> (forall x, In x l -> f x = Ok (fb x)) ->
    Z.of_nat (length l) < 2 ^ 72 ->
    (exists l1 x l2 it', l = l1 ++ x :: l2 /\ filter fb l1 = [] /\ fb x = true /\
       find_next next f it = Ok (Some x, it') /\ Drains next it' l2) \/
    (filter fb l = [] /\ exists it', find_next next f it = Ok (None, it') /\
       next it' = Ok (None, it')).
  Proof.
    intros it l (i1 & i2 & HC & HN & HF) Hf Hl.
    set (body := fun it =>
      let! (x, it') := next it in
      match x with
      | None => Ok (inr (None, it'))
      | Some x => let! b := f x in Ok (if (b : bool) then inr (Some x, it') else inl it')
      end).
    enough (HR :
      (exists l1 x l2 it', l = l1 ++ x :: l2 /\ filter fb l1 = [] /\ fb x = true /\
         Rounds body (length l1) it (Ok (Some x, it')) /\ Drains next it' l2) \/
      (filter fb l = [] /\ exists it', Rounds body (length l) it (Ok (None, it')) /\
         next it' = Ok (None, it'))).
    { destruct HR as [(l1 & x & l2 & it' & -> & H1 & H2 & H3 & H4)|(H1 & it' & H2 & H3)].
      - left. exists l1, x, l2, it'. repeat split; auto. unfold find_next. fold body.
        eapply loop_rounds; [exact H3|]. rewrite app_length in Hl. lia.
      - right. split; auto. exists it'. split; auto. unfold find_next. fold body.
        eapply loop_rounds; [exact H2|auto]. }
    clear Hl. induction HC as [it|it x it' l it3 H HC IH].
    - right. split; auto. exists i2. split; auto. apply R_done. unfold body. rewrite HN. reflexivity.
    - pose proof (Hf x (or_introl eq_refl)) as Hx. destruct (fb x) eqn:Ex.
      + left. exists [], x, l, it'. repeat split; auto; [|exists it3, i2; auto].
        apply R_done. unfold body. rewrite H. cbn [bind]. rewrite Hx. reflexivity.
      + assert (Hb : body it = Ok (inl it')).
        { unfold body. rewrite H. cbn [bind]. rewrite Hx. reflexivity. }
        destruct IH as [(l1 & y & l2 & it'' & -> & H1 & H2 & H3 & H4)|(H1 & it'' & H2 & H3)]; auto.
        { intros y Hy. apply Hf. right; auto. }
        * left. exists (x :: l1), y, l2, it''. repeat split; auto.
          -- cbn [filter]. rewrite Ex. auto.
          -- cbn [length]. eapply R_more; eauto.
        * right. split; [cbn [filter]; rewrite Ex; auto|]. exists it''. split; auto.
          cbn [length]. eapply R_more; eauto.
  Qed.

  Lemma find_none : forall it, next it = Ok (None, it) -> find_next next f it = Ok (None, it).
  Proof.
    intros it H. unfold find_next. eapply loop_rounds with (n := 0%nat); [|lia].
    apply R_done. rewrite H. reflexivity.
  Qed.

  Lemma filter_gone : forall (p : X -> bool) l1 l2, filter p l1 = [] -> filter p (l1 ++ l2) = filter p l2.
  Proof. intros p l1 l2 H. rewrite filter_app, H. reflexivity. Qed.

  (** What maps the items found: the identity for [find], the target for [EdgeFiltered]. *)
  Lemma find_drains_map : forall Y St (wrap : It -> St) (g : X -> Y)
    (nx : St -> outcome (option Y * St)),
    (forall it x it', find_next next f it = Ok (Some x, it') -> fb x = true ->
       nx (wrap it) = Ok (Some (g x), wrap it')) ->
    (forall it it', find_next next f it = Ok (None, it') -> nx (wrap it) = Ok (None, wrap it')) ->
    forall n l it, (length l <= n)%nat -> Drains next it l -> (forall x, In x l -> f x = Ok (fb x)) ->
    Z.of_nat (length l) < 2 ^ 72 -> Drains nx (wrap it) (map g (filter fb l)).
  Proof.
    intros Y St wrap g nx HS HN. induction n as [|n IH]; intros l it Hn HD Hf Hl.
    - destruct l as [|x l]; [|cbn [length] in Hn; lia].
      destruct (find_step it [] HD Hf Hl) as [(l1 & x & l2 & it' & E & _)|(_ & it' & H1 & H2)].
      + destruct l1; discriminate.
      + cbn [filter map]. exists (wrap it), (wrap it'). split; [constructor|].
        split; [exact (HN _ _ H1)|]. exact (HN _ _ (find_none _ H2)).
    - destruct (find_step it l HD Hf Hl) as [(l1 & x & l2 & it' & -> & H1 & H2 & H3 & H4)|(H0 & it' & H1 & H2)].
      + rewrite filter_gone by auto. cbn [filter]. rewrite H2. cbn [map].
        eapply Drains_cons; [exact (HS _ _ _ H3 H2)|].
        rewrite app_length in Hn, Hl. cbn [length] in Hn, Hl. apply IH; auto; try lia.
        intros y Hy. apply Hf. apply in_app_iff. right. right. auto.
      + rewrite H0. cbn [map]. exists (wrap it), (wrap it'). split; [constructor|].
        split; [exact (HN _ _ H1)|]. exact (HN _ _ (find_none _ H2)).
  Qed.

  Lemma find_drains : forall it l, Drains next it l -> (forall x, In x l -> f x = Ok (fb x)) ->
    Z.of_nat (length l) < 2 ^ 72 -> Drains (find_next next f) it (filter fb l).
  Proof.
    intros it l HD Hf Hl.
    rewrite <- (map_id (filter fb l)).
    apply (find_drains_map X It (fun it => it) (fun x => x) (find_next next f)) with (n := length l); auto.
  Qed.
End Find.

Lemma filter_short : forall X (p : X -> bool) l, (length (filter p l) <= length l)%nat.
Proof. intros X p l. induction l as [|x l IH]; cbn [filter]; [auto|]. destruct (p x); cbn [length]; lia. Qed.

(** ** The nodes that are kept *)

Section NodesKept.
  Context {C It VM : Type} (nb : C -> It) (nb_next : C -> It -> outcome (option C * It))
    (visit : VM -> C -> outcome (bool * VM)) (visited : VM -> C -> outcome bool)
    (dec : forall a b : C, {a = b} + {a <> b})
    (board : list C) (raw : C -> list C) (VR : VM -> list C -> Prop)
    (Hnb : forall c, In c board -> Drains (nb_next c) (nb c) (raw c))
    (Hsize : forall c, In c board -> Z.of_nat (length (raw c)) + 1 < 2 ^ 72)
    (keep : C -> bool).

  Notation fnb := (nf_neighbors keep nb).
  Notation fnext := (nf_neighbors_next keep nb_next).
  Definition kept (c : C) : list C := if keep c then filter keep (raw c) else [].

  Lemma kept_drains : forall c, In c board -> Drains (fnext c) (fnb c) (kept c).
  Proof using Hnb Hsize.
    clear - Hnb Hsize.
    intros c Hc. unfold kept, nf_neighbors. destruct (keep c).
    - rewrite <- (map_id (filter keep (raw c))). specialize (Hsize c Hc).
      eapply (find_drains_map (nb_next c) (fun t => Ok (keep t)) keep C (bool * It)
        (fun it => (true, it)) (fun x => x) (fnext c)) with (n := length (raw c)); auto; try lia.
      + intros it x it' H _. unfold nf_neighbors_next. cbn [fst snd]. rewrite H. reflexivity.
      + intros it it' H. unfold nf_neighbors_next. cbn [fst snd]. rewrite H. reflexivity.
    - exists (false, nb c), (false, nb c). split; [constructor|]. split; reflexivity.
  Qed.

  Lemma kept_size : forall c, In c board -> Z.of_nat (length (kept c)) + 1 < 2 ^ 72.
  Proof using Hsize.
    clear - Hsize.
    intros c Hc. specialize (Hsize c Hc). pose proof (filter_short _ keep (raw c)).
    unfold kept. destruct (keep c); cbn [length]; lia.
  Qed.

  Notation walk := (Reached nb nb_next (filter keep board)).
  Notation fwalk := (Reached fnb fnext board).

  Lemma fwalk_in : forall start n c, In start board -> fwalk start n c -> In c board.
  Proof. intros start n c Hs H. inversion H; subst; auto. Qed.
  Lemma walk_kept : forall start n c, In start board -> keep start = true -> walk start n c ->
    In c board /\ keep c = true.
  Proof. intros start n c Hs Hk H. inversion H; subst; auto. apply filter_In; auto. Qed.

  Lemma walks : forall start n c, In start board -> keep start = true ->
    fwalk start n c <-> walk start n c.
  Proof using Hnb Hsize.
    clear - Hnb Hsize.
    intros start n c Hs Hk. split; induction 1 as [|n b c l HR IH HD Hi Hb].
    - constructor.
    - destruct (walk_kept _ _ _ Hs Hk IH) as [Hbb Hbk].
      rewrite (Drains_det _ _ _ _ HD (kept_drains b Hbb)) in Hi. unfold kept in Hi. rewrite Hbk in Hi.
      apply filter_In in Hi. destruct Hi as [Hi Hc].
      eapply reached_step; [exact IH|exact (Hnb b Hbb)|auto|apply filter_In; auto].
    - constructor.
    - destruct (walk_kept _ _ _ Hs Hk HR) as [Hbb Hbk]. apply filter_In in Hb. destruct Hb as [Hc Hck].
      eapply reached_step; [exact IH|exact (kept_drains b Hbb)| |auto].
      unfold kept. rewrite Hbk. apply filter_In. split; auto.
      rewrite (Drains_det _ _ _ _ (Hnb b Hbb) HD). auto.
  Qed.

  Lemma shut_in : forall start n c, In start board -> keep start = false -> fwalk start n c ->
    n = 0%nat /\ c = start.
  Proof using Hnb Hsize.
    clear - Hnb Hsize.
    intros start n c Hs Hk. induction 1 as [|n b c l HR IH HD Hi Hb]; auto.
    exfalso. destruct IH as [-> ->].
    rewrite (Drains_det _ _ _ _ HD (kept_drains start Hs)) in Hi. unfold kept in Hi.
    rewrite Hk in Hi. auto.
  Qed.

  Context
    (Hoff : forall c x, In c board -> In x (raw c) -> ~ In x board -> forall vm,
       visit vm x = Ok (false, vm) /\ visited vm x = Ok false)
    (Hvisit : forall vm M c, VR vm M -> In c board ->
       exists b vm', visit vm c = Ok (b, vm') /\ (b = true <-> ~ In c M) /\ VR vm' (c :: M))
    (Hvisited : forall vm M c, VR vm M -> In c board ->
       exists b, visited vm c = Ok b /\ (b = true <-> In c M))
    (VRext : forall vm M M', VR vm M -> (forall c, In c M <-> In c M') -> VR vm M')
    (fresh : VM) (Hfresh : VR fresh []) (start : C) (Hstart : In start board).

  Lemma kept_off : forall c x, In c board -> In x (kept c) -> ~ In x board -> forall vm,
    visit vm x = Ok (false, vm) /\ visited vm x = Ok false.
  Proof using Hoff.
    clear - Hoff.
    intros c x Hc Hx. apply (Hoff c x Hc). unfold kept in Hx.
    destruct (keep c); [apply filter_In in Hx; tauto|destruct Hx].
  Qed.

  Lemma single : forall l, hd_error l = Some start -> NoDup l -> (forall c, In c l -> c = start) ->
    l = [start].
  Proof.
    intros [|x l] H HN HA; [discriminate|]. injection H as ->. f_equal. destruct l as [|y l]; auto.
    exfalso. rewrite (HA y) in HN by (right; left; auto). apply NoDup_cons_iff in HN. apply HN. left; auto.
  Qed.

  Lemma kept_bfs : exists it l,
    bfs_new visit fresh start = Ok it /\ Drains (bfs_next fnb fnext visit) it l /\
    hd_error l = Some start /\ NoDup l /\
    (keep start = true ->
      (forall c, In c l <-> exists n, walk start n c) /\
      forall l1 a l2 b l3 n, l = l1 ++ a :: l2 ++ b :: l3 -> walk start n b ->
        exists k, (k <= n)%nat /\ walk start k a) /\
    (keep start = false -> l = [start]).
  Proof using Hnb Hsize Hoff Hvisit Hvisited VRext Hfresh Hstart dec.
    clear - Hnb Hsize Hoff Hvisit Hvisited VRext Hfresh Hstart dec.
    destruct (bfs_any fnb fnext visit visited dec board kept VR kept_drains kept_size kept_off Hvisit
      Hvisited VRext start Hstart fresh Hfresh) as (it & l & E & HD & Hh & HN & Hin & HO).
    exists it, l. do 4 (split; [auto|]). split; intros Hk.
    - split.
      + intros c. rewrite Hin. split; intros (n & Hn); exists n; apply walks in Hn; auto;
          apply walks; auto.
      + intros l1 a l2 b l3 n El Hw. apply walks in Hw; auto.
        destruct (HO l1 a l2 b l3 n El Hw) as (k & K1 & K2). exists k. split; auto. apply walks; auto.
    - apply single; auto. intros c Hc. apply Hin in Hc. destruct Hc as (n & Hc).
      apply shut_in in Hc; tauto.
  Qed.

  Lemma kept_dfs : exists l,
    Drains (dfs_next fnb fnext visit visited) (dfs_new fresh start) l /\
    hd_error l = Some start /\ NoDup l /\
    (keep start = true -> forall c, In c l <-> exists n, walk start n c) /\
    (keep start = false -> l = [start]).
  Proof using Hnb Hsize Hoff Hvisit Hvisited VRext Hfresh Hstart dec.
    clear - Hnb Hsize Hoff Hvisit Hvisited VRext Hfresh Hstart dec.
    destruct (dfs_any fnb fnext visit visited dec board kept VR kept_drains kept_size kept_off Hvisit
      Hvisited VRext start Hstart fresh Hfresh) as (l & HD & Hh & HN & Hin & _).
    exists l. do 3 (split; [auto|]). split; intros Hk.
    - intros c. rewrite Hin. split; intros (n & Hn); exists n; apply walks in Hn; auto; apply walks; auto.
    - apply single; auto. intros c Hc. apply Hin in Hc. destruct Hc as (n & Hc).
      apply shut_in in Hc; tauto.
  Qed.

  Lemma kept_path : Z.of_nat (length board) + 1 < 2 ^ 72 ->
    forall eqb : C -> C -> bool, (forall a b, eqb a b = true <-> a = b) ->
    keep start = true -> forall to,
    exists b, has_path_connecting fnb fnext visit visited eqb fresh start to = Ok b /\
      (b = true <-> exists n, walk start n to).
  Proof using Hnb Hsize Hoff Hvisit Hvisited VRext Hfresh Hstart dec.
    clear - Hnb Hsize Hoff Hvisit Hvisited VRext Hfresh Hstart dec.
    intros HB eqb Heq Hk to. destruct kept_dfs as (l & L1 & _ & L2 & L3 & _). specialize (L3 Hk).
    assert (HL : (length l <= length board)%nat).
    { apply NoDup_incl_length; auto. intros c Hc. apply L3 in Hc. destruct Hc as (n & Hc).
      apply walk_kept in Hc; tauto. }
    rewrite (path_ok fnb fnext visit visited dec start eqb Heq fresh l L1) by lia.
    eexists. split; [reflexivity|]. rewrite <- L3.
    destruct (in_dec dec to l) as [H|H]; split; auto; discriminate.
  Qed.
End NodesKept.

(** ** Weighted searches *)

Section Weighted.
  Context {C Ed Ie VM : Type} (eqb : C -> C -> bool) (H : HeapOps C)
    (edges : C -> outcome Ie) (edges_next : Ie -> outcome (option Ed * Ie))
    (targeto : Ed -> outcome C) (target : Ed -> C) (cost : Ed -> Z)
    (visit : VM -> C -> outcome (bool * VM)) (visited : VM -> C -> outcome bool)
    (Heqb : forall a b, eqb a b = true <-> a = b) (HH : HeapOK H)
    (board : list C) (out : C -> list Ed) (VR : VM -> list C -> Prop)
    (Hedges : forall c, In c board -> exists it, edges c = Ok it /\ Drains edges_next it (out c))
    (Hdeg : forall c, In c board -> Z.of_nat (length (out c)) + 1 < 2 ^ 72)
    (Hsize : Z.of_nat (length board) < 2 ^ 72)
    (Htgt : forall c e, In c board -> In e (out c) -> targeto e = Ok (target e))
    (Hin : forall c e, In c board -> In e (out c) -> In (target e) board)
    (Hvisit : forall vm M c, VR vm M -> In c board ->
       exists b vm', visit vm c = Ok (b, vm') /\ (b = true <-> ~ In c M) /\ VR vm' (c :: M))
    (Hvisited : forall vm M c, VR vm M -> In c board ->
       exists b, visited vm c = Ok b /\ (b = true <-> In c M))
    (fresh : VM) (Hfresh : VR fresh [])
    (start : C) (Hstart : In start board).

  (** A view of the graph that yields some of the edges. *)
  Section View.
    Context {Iv : Type} (vedges : C -> outcome Iv) (vnext : Iv -> outcome (option Ed * Iv))
      (vout : C -> list Ed)
      (Vedges : forall c, In c board -> exists it, vedges c = Ok it /\ Drains vnext it (vout c))
      (Vsub : forall c, In c board -> incl (vout c) (out c))
      (Vdeg : forall c, In c board -> (length (vout c) <= length (out c))%nat)
      (Vcost : forall c e, In c board -> In e (vout c) -> 0 <= cost e)
      (way : list C -> Z -> C -> Prop)
      (Hway : forall p k c, way p k c <-> GRoute target cost vout start p k c).

    Lemma v_deg : forall c, In c board -> Z.of_nat (length (vout c)) + 1 < 2 ^ 72.
    Proof using Vdeg Hdeg. clear - Vdeg Hdeg. intros c Hc. specialize (Vdeg c Hc). specialize (Hdeg c Hc). lia. Qed.
    Lemma v_tgt : forall c e, In c board -> In e (vout c) -> targeto e = Ok (target e).
    Proof using Vsub Htgt. clear - Vsub Htgt. intros c e Hc He. apply (Htgt c e Hc). apply (Vsub c Hc). auto. Qed.
    Lemma v_in : forall c e, In c board -> In e (vout c) -> In (target e) board.
    Proof using Vsub Hin. clear - Vsub Hin. intros c e Hc He. apply (Hin c e Hc). apply (Vsub c Hc). auto. Qed.

    Lemma view_dijkstra : forall goal, exists r,
      Returns (dijkstra_round eqb H vedges vnext targeto cost visit visited goal)
        (dijkstra_init eqb H fresh start) r /\
      (goal = None -> least_ways way r) /\
      forall b, goal = Some b ->
        match r b with
        | Some x => (exists p, way p x b) /\ forall p k, way p k b -> x <= k
        | None => forall p k, ~ way p k b
        end.
    Proof using Heqb HH Vedges Vsub Vdeg Vcost Hdeg Htgt Hin Hvisit Hvisited Hfresh Hstart Hway.
      clear - Heqb HH Vedges Vsub Vdeg Vcost Hdeg Htgt Hin Hvisit Hvisited Hfresh Hstart Hway. intros goal.
      destruct (dijkstra_ok eqb H vedges vnext targeto target cost visit visited goal Heqb HH board vout
        VR Vedges v_deg v_tgt v_in Vcost Hvisit Hvisited fresh Hfresh start Hstart) as (r & R0 & R1 & R2).
      exists r. split; auto.
      assert (K : forall c, (goal = None \/ goal = Some c) -> match r c with
        | Some x => (exists p, way p x c) /\ forall p k, way p k c -> x <= k
        | None => forall p k, ~ way p k c
        end).
      { intros c Hg.
        assert (R3 : forall p k, GRoute target cost vout start p k c -> exists x, r c = Some x /\ x <= k).
        { intros p k HR. destruct (R2 _ _ _ HR) as [P|(b & x & P1 & P2)]; auto.
          destruct Hg as [->| ->]; [discriminate|]. injection P1 as <-. eauto. }
        destruct (r c) as [x|] eqn:E.
        - destruct (R1 c x E) as (_ & p & P). split; [exists p; apply Hway; auto|].
          intros p' k' P'. apply Hway in P'. destruct (R3 _ _ P') as (x' & E' & L).
          injection E' as <-. auto.
        - intros p k P. apply Hway in P. destruct (R3 _ _ P) as (x & E' & _). discriminate. }
      split.
      - intros Hg c. apply K. auto.
      - intros b Hg. apply K. auto.
    Qed.

    Lemma view_astar : forall (est : C -> Z) (goal : C -> bool),
      (forall n, In n board -> goal n = true -> 0 <= est n) ->
      (forall n p k c, In n board -> goal c = true -> GRoute target cost vout n p k c -> est n <= k) ->
      exists r, Returns (astar_round eqb H vedges vnext targeto cost est goal)
          (astar_init eqb H est start) r /\ cheapest_way way goal r.
    Proof using Heqb HH Vedges Vsub Vdeg Vcost Hdeg Hsize Htgt Hin Hstart Hway.
      clear - Heqb HH Vedges Vsub Vdeg Vcost Hdeg Hsize Htgt Hin Hstart Hway. intros est goal Hpos Hadm.
      destruct (astar_ok eqb H vedges vnext targeto target cost est goal Heqb HH board vout Vedges
        v_deg Hsize v_tgt v_in Vcost start Hstart) as (r & R0 & R1).
      exists r. split; auto. destruct r as [[x p]|].
      2:{ intros p k c Hg HW. apply Hway in HW. rewrite (R1 _ _ _ HW) in Hg. discriminate. }
      destruct R1 as (c & k & Hg & HR & Hk & HM).
      assert (HM' : forall l' k' w, GRoute target cost vout start l' k' w -> goal w = true -> x <= k').
      { intros l' k' w HR' Hw. rewrite <- (Z.add_0_r k'). eapply HM; eauto.
        intros n l2 k2 w2 HR2 Hn Hw2. rewrite Z.add_0_r. eauto. }
      assert (k = x) as -> by (specialize (HM' _ _ _ HR Hg); lia).
      split.
      - exists c. split; auto. apply Hway. auto.
      - intros p' k' c' Hc' HW. apply Hway in HW. eauto.
    Qed.
  End View.

  Notation Rt := (Route edges edges_next targeto cost).
  Notation GR := (GRoute target cost).

  Lemma at_out : forall a e, In a board -> EdgeAt edges edges_next a e <-> In e (out a).
  Proof using Hedges. clear - Hedges. intros a e Ha. apply edge_at_out with (board := board); auto. Qed.

  (** *** Nodes that are kept *)

  Section Keep.
    Context (keep : C -> bool).
    Definition kept_out (c : C) : list Ed :=
      if keep c then filter (fun e => keep (target e)) (out c) else [].

    Lemma kept_edges : forall c, In c board -> exists it,
      nf_edges keep edges c = Ok it /\
      Drains (nf_edges_next keep edges_next targeto) it (kept_out c).
    Proof using Hedges Hdeg Htgt.
    clear - Hedges Hdeg Htgt.
    intros c Hc. destruct (Hedges c Hc) as (it & E1 & D1).
      exists (keep c, it). unfold nf_edges. rewrite E1. cbn [bind]. split; auto.
      unfold kept_out. destruct (keep c).
      - rewrite <- (map_id (filter _ _)). specialize (Hdeg c Hc).
        eapply (find_drains_map edges_next (fun e => let! t := targeto e in Ok (keep t))
          (fun e => keep (target e)) Ed (bool * Ie) (fun it => (true, it)) (fun x => x)
          (nf_edges_next keep edges_next targeto)) with (n := length (out c)); auto; try lia.
        + intros it1 x it' H1 _. unfold nf_edges_next. cbn [fst snd]. rewrite H1. reflexivity.
        + intros it1 it' H1. unfold nf_edges_next. cbn [fst snd]. rewrite H1. reflexivity.
        + intros e He. rewrite (Htgt c e Hc He). reflexivity.
      - exists (false, it), (false, it). split; [constructor|]. split; reflexivity.
    Qed.

    Lemma kept_sub : forall c, In c board -> incl (kept_out c) (out c).
    Proof.
      clear. intros c _ e. unfold kept_out. destruct (keep c); [rewrite filter_In; tauto|intros []].
    Qed.
    Lemma kept_few : forall c, In c board -> (length (kept_out c) <= length (out c))%nat.
    Proof.
      clear. intros c _. unfold kept_out. destruct (keep c); [apply filter_short|cbn [length]; lia].
    Qed.

    Lemma kept_route : forall a p k b, In a board ->
      Inside edges edges_next targeto cost keep a p k b <->
      keep a = true /\ GR kept_out a p k b.
    Proof using Hedges Htgt Hin.
    clear - Hedges Htgt Hin.
    intros a p k b Ha. unfold Inside.
      rewrite (route_iff edges edges_next targeto target cost board out Hedges Htgt Hin a p k b Ha).
      split.
      - intros [HR HK]. revert Ha. induction HR as [c|a e p k b He HR IH]; intros Ha.
        + split; [apply HK; left; auto|constructor].
        + assert (Hk : keep a = true) by (apply HK; left; auto). split; auto.
          destruct IH as [I1 I2]; [intros c Hc; apply HK; right; auto|eapply Hin; eauto|].
          constructor; auto. unfold kept_out. rewrite Hk. apply filter_In. auto.
      - intros [Hk HR]. revert Ha Hk. induction HR as [c|a e p k b He HR IH]; intros Ha Hk.
        + split; [constructor|]. intros x [<-|[]]. auto.
        + unfold kept_out in He. rewrite Hk in He. apply filter_In in He. destruct He as [He Ht].
          destruct IH as [I1 I2]; auto; [eapply Hin; eauto|]. split; [constructor; auto|].
          intros x [<-|Hx]; auto.
    Qed.

    Lemma kept_shut : forall a p k b, keep a = false -> GR kept_out a p k b <-> p = [a] /\ k = 0 /\ b = a.
    Proof.
      clear. intros a p k b Hk. split.
      - intros HR. inversion HR as [c|a' e p' k' b' He HR']; subst; auto.
        unfold kept_out in He. rewrite Hk in He. destruct He.
      - intros (-> & -> & ->). constructor.
    Qed.

    Notation fround goal := (dijkstra_round eqb H (nf_edges keep edges)
      (nf_edges_next keep edges_next targeto) targeto cost visit visited goal).
    Notation fastar est goal := (astar_round eqb H (nf_edges keep edges)
      (nf_edges_next keep edges_next targeto) targeto cost est goal).
    Notation inside := (Inside edges edges_next targeto cost keep).

    Context (Hcost : forall a e, In a board -> EdgeAt edges edges_next a e -> keep a = true ->
      keep (target e) = true -> 0 <= cost e).

    Lemma kept_cost : forall c e, In c board -> In e (kept_out c) -> 0 <= cost e.
    Proof using Hcost Hedges.
      clear - Hcost Hedges. intros c e Hc He. unfold kept_out in He. destruct (keep c) eqn:Ek; [|destruct He].
      apply filter_In in He. destruct He as [He Ht]. apply (Hcost c e Hc); auto. apply at_out; auto.
    Qed.

    Lemma kept_dijkstra : keep start = true -> forall goal, exists r,
      Returns (fround goal) (dijkstra_init eqb H fresh start) r /\
      (goal = None -> least_ways (inside start) r) /\
      forall b, goal = Some b ->
        match r b with
        | Some x => (exists p, inside start p x b) /\ forall p k, inside start p k b -> x <= k
        | None => forall p k, ~ inside start p k b
        end.
    Proof using Heqb HH Hedges Hdeg Htgt Hin Hvisit Hvisited Hfresh Hstart Hcost.
      clear - Heqb HH Hedges Hdeg Htgt Hin Hvisit Hvisited Hfresh Hstart Hcost. intros Hk goal. apply view_dijkstra with (vout := kept_out).
      - exact kept_edges.
      - exact kept_sub.
      - exact kept_few.
      - exact kept_cost.
      - intros p k c. rewrite kept_route by auto. tauto.
    Qed.

    Lemma shut_dijkstra : keep start = false -> exists r,
      Returns (fround None) (dijkstra_init eqb H fresh start) r /\
      forall c, r c = if eqb c start then Some 0 else None.
    Proof using Heqb HH Hedges Hdeg Htgt Hin Hvisit Hvisited Hfresh Hstart Hcost.
      clear - Heqb HH Hedges Hdeg Htgt Hin Hvisit Hvisited Hfresh Hstart Hcost. intros Hk.
      destruct (view_dijkstra (nf_edges keep edges) (nf_edges_next keep edges_next targeto) kept_out
        kept_edges kept_sub kept_few kept_cost (fun p k c => GR kept_out start p k c)
        (fun p k c => iff_refl _) None) as (r & R0 & R1 & _).
      exists r. split; auto. specialize (R1 eq_refl). intros c. specialize (R1 c).
      destruct (r c) as [x|].
      - destruct R1 as ((p & P) & _). apply kept_shut in P; auto. destruct P as (_ & -> & ->).
        rewrite (proj2 (Heqb start start) eq_refl). reflexivity.
      - destruct (eqb c start) eqn:E; auto. apply Heqb in E. subst c. exfalso.
        apply (R1 [start] 0). constructor.
    Qed.

    Lemma kept_astar : keep start = true -> forall (est : C -> Z) (goal : C -> bool),
      (forall n, In n board -> goal n = true -> 0 <= est n) ->
      (forall n p k c, In n board -> goal c = true -> inside n p k c -> est n <= k) ->
      exists r, Returns (fastar est goal) (astar_init eqb H est start) r /\
        cheapest_way (inside start) goal r.
    Proof using Heqb HH Hedges Hdeg Hsize Htgt Hin Hstart Hcost.
      clear - Heqb HH Hedges Hdeg Hsize Htgt Hin Hstart Hcost. intros Hk est goal Hpos Hadm.
      (* What is not kept has no edges here; there the estimate may be anything. *)
      pose (board' := filter keep board).
      assert (B : forall c, In c board' -> In c board /\ keep c = true).
      { intros c Hc. apply filter_In in Hc. auto. }
      destruct (astar_ok eqb H (nf_edges keep edges) (nf_edges_next keep edges_next targeto) targeto
        target cost est goal Heqb HH board' kept_out) with (start := start) as (r & R0 & R1).
      - intros c Hc. apply kept_edges. apply B; auto.
      - intros c Hc. apply B in Hc. destruct Hc as [Hc _]. pose proof (kept_few c Hc).
        specialize (Hdeg c Hc). lia.
      - pose proof (filter_short _ keep board). unfold board'. lia.
      - intros c e Hc He. apply B in Hc. destruct Hc as [Hc _]. apply (Htgt c e Hc), kept_sub; auto.
      - intros c e Hc He. apply B in Hc. destruct Hc as [Hc Hkc]. unfold kept_out in He.
        rewrite Hkc in He. apply filter_In in He. destruct He as [He Ht]. apply filter_In. split; auto.
        apply (Hin c e Hc He).
      - intros c e Hc He. apply B in Hc. apply (kept_cost c e); tauto.
      - apply filter_In. auto.
      - exists r. split; auto.
        assert (W : forall p k c, inside start p k c <-> GR kept_out start p k c).
        { intros p k c. rewrite kept_route by auto. tauto. }
        destruct r as [[x p]|].
        2:{ intros p k c Hg HW. apply W in HW. rewrite (R1 _ _ _ HW) in Hg. discriminate. }
        destruct R1 as (c & k & Hg & HR & Hle & HM).
        assert (HM' : forall l' k' w, GR kept_out start l' k' w -> goal w = true -> x <= k').
        { intros l' k' w HR' Hw. rewrite <- (Z.add_0_r k'). eapply HM; eauto.
          - intros n Hn. apply B in Hn. apply Hpos. tauto.
          - intros n l2 k2 w2 HR2 Hn Hw2. rewrite Z.add_0_r. apply B in Hn. destruct Hn as [Hn Hkn].
            apply (Hadm n l2 k2 w2); auto. apply kept_route; auto. }
        assert (k = x) as -> by (specialize (HM' _ _ _ HR Hg); lia).
        split.
        + exists c. split; auto. apply W. auto.
        + intros p' k' c' Hc' HW. apply W in HW. eauto.
    Qed.
  End Keep.

  (** *** Edges that pass *)

  Section Pass.
    Context (pass : Ed -> bool).
    Definition passed (c : C) : list Ed := filter pass (out c).
    Notation pnext := (ef_edges_next pass edges_next).

    Lemma passed_edges : forall c, In c board -> exists it,
      edges c = Ok it /\ Drains pnext it (passed c).
    Proof using Hedges Hdeg.
    clear - Hedges Hdeg.
    intros c Hc. destruct (Hedges c Hc) as (it & E1 & D1).
      exists it. split; auto. specialize (Hdeg c Hc). apply find_drains; auto. lia.
    Qed.

    Lemma passed_nb : forall c, In c board ->
      Drains (ef_neighbors_next pass edges_next targeto c) (ef_neighbors edges c)
        (map target (passed c)).
    Proof using Hedges Hdeg Htgt.
    clear - Hedges Hdeg Htgt.
    intros c Hc. destruct (Hedges c Hc) as (it & E1 & D1).
      unfold ef_neighbors. rewrite E1. specialize (Hdeg c Hc).
      (* The items found come from [out c], so their targets are known. *)
      assert (G : forall n l it, (length l <= n)%nat -> Z.of_nat (length l) < 2 ^ 72 -> incl l (out c) -> Drains edges_next it l ->
        Drains (ef_neighbors_next pass edges_next targeto c) (Ok it) (map target (filter pass l))).
      { clear it E1 D1. induction n as [|n IH]; intros l it Hn Hz Hl HD.
        - destruct l; [|cbn [length] in Hn; lia].
          destruct (find_step edges_next (fun e => Ok (pass e)) pass it [] HD) as
            [(l1 & x & l2 & it' & E & _)|(_ & it' & H1 & H2)]; auto.
          + destruct l1; discriminate.
          + cbn [filter map]. exists (Ok it), (Ok it'). split; [constructor|].
            unfold ef_neighbors_next, ef_edges_next. cbn [bind]. rewrite H1.
            rewrite (find_none _ _ _ H2). auto.
        - destruct (find_step edges_next (fun e => Ok (pass e)) pass it l HD) as
            [(l1 & x & l2 & it' & -> & H1 & H2 & H3 & H4)|(H0 & it' & H1 & H2)]; auto.
          + rewrite filter_gone by auto. cbn [filter]. rewrite H2. cbn [map].
            eapply Drains_cons.
            * unfold ef_neighbors_next, ef_edges_next. cbn [bind]. rewrite H3. cbn [bind].
              rewrite (Htgt c x Hc); [reflexivity|]. apply Hl. apply in_app_iff. right. left. auto.
            * rewrite app_length in Hn, Hz. cbn [length] in Hn, Hz. apply IH; auto; try lia.
              intros y Hy. apply Hl. apply in_app_iff. right. right. auto.
          + rewrite H0. cbn [map]. exists (Ok it), (Ok it'). split; [constructor|].
            unfold ef_neighbors_next, ef_edges_next. cbn [bind]. rewrite H1.
            rewrite (find_none _ _ _ H2). auto. }
      apply (G (length (out c))); auto; [lia|]. intros x Hx. auto.
    Qed.

    Lemma passed_route : forall a p k b, In a board ->
      Along edges edges_next targeto cost pass a p k b <-> GR passed a p k b.
    Proof using Hedges Htgt Hin.
    clear - Hedges Htgt Hin.
    intros a p k b Ha. split; intros HR; revert Ha.
      - induction HR as [c|a e t p k b He Hp Ht HR IH]; intros Ha; [constructor|].
        apply (edge_at_out edges edges_next board out Hedges a e Ha) in He.
        rewrite (Htgt a e Ha He) in Ht. injection Ht as <-.
        constructor; [apply filter_In; auto|]. apply IH. eapply Hin; eauto.
      - induction HR as [c|a e p k b He HR IH]; intros Ha; [constructor|].
        apply filter_In in He. destruct He as [He Hp].
        eapply along_step; [apply (edge_at_out edges edges_next board out Hedges); eauto|auto|apply (Htgt a e); auto|].
        apply IH. eapply Hin; eauto.
    Qed.

    Notation pnb := (ef_neighbors edges).
    Notation pnbn := (ef_neighbors_next pass edges_next targeto).

    Lemma passed_in : forall c x, In c board -> In x (map target (passed c)) -> In x board.
    Proof using Hin.
      clear - Hin. intros c x Hc Hx. apply in_map_iff in Hx. destruct Hx as (e & <- & He). apply filter_In in He.
      apply (Hin c e Hc). tauto.
    Qed.
    Lemma passed_deg : forall c, In c board -> Z.of_nat (length (map target (passed c))) + 1 < 2 ^ 72.
    Proof using Hdeg.
    clear - Hdeg.
    intros c Hc. rewrite map_length. pose proof (filter_short _ pass (out c)). specialize (Hdeg c Hc).
      unfold passed. lia.
    Qed.

    Lemma reached_front : forall a p k b, GR passed a p k b -> In a board -> forall n,
      Reached pnb pnbn board start n a -> exists n', S n' = (n + length p)%nat /\
        Reached pnb pnbn board start n' b.
    Proof using Hedges Hdeg Htgt Hin.
    clear - Hedges Hdeg Htgt Hin.
    intros a p k b HG. induction HG as [c|a e p k b He HR IH]; intros Ha n Hn.
      - exists n. split; auto. cbn [length]. lia.
      - assert (Ht : In (target e) (map target (passed a))) by (apply in_map; auto).
        destruct (IH (passed_in a _ Ha Ht) (S n)) as (n' & N1 & N2).
        + eapply reached_step; [exact Hn|exact (passed_nb a Ha)|auto|]. apply (passed_in a); auto.
        + exists n'. split; auto. cbn [length]. lia.
    Qed.

    Lemma snoc_route : forall a p k b, GR passed a p k b -> forall e, In e (passed b) ->
      GR passed a (p ++ [target e]) (k + cost e) (target e).
    Proof.
      clear. intros a p k b HG. induction HG as [c|a e' p k b He HR IH]; intros e Hi.
      - cbn [app]. replace (0 + cost e) with (cost e + 0) by lia. constructor; auto. constructor.
      - cbn [app]. replace (cost e' + k + cost e) with (cost e' + (k + cost e)) by lia.
        constructor; auto.
    Qed.

    Lemma reached_over : forall n c, Reached pnb pnbn board start n c <->
      exists p k, Along edges edges_next targeto cost pass start p k c /\ length p = S n.
    Proof using Hedges Hdeg Htgt Hin Hstart.
    clear - Hedges Hdeg Htgt Hin Hstart.
    intros n c. split.
      - intros HW. induction HW as [|n b c l HR IH HD Hi Hb].
        + exists [start], 0. split; [constructor|auto].
        + destruct IH as (p & k & P1 & P2). apply passed_route in P1; auto.
          assert (Hbb : In b board) by (inversion HR; subst; auto).
          rewrite (Drains_det _ _ _ _ HD (passed_nb b Hbb)) in Hi. apply in_map_iff in Hi.
          destruct Hi as (e & <- & He). exists (p ++ [target e]), (k + cost e). split.
          * apply passed_route; auto. exact (snoc_route _ _ _ _ P1 e He).
          * rewrite app_length, P2. cbn [length]. lia.
      - intros (p & k & P1 & P2). apply passed_route in P1; auto.
        destruct (reached_front _ _ _ _ P1 Hstart 0 (reached_here _ _ _ _)) as (n' & N1 & N2).
        assert (n' = n) by lia. subst n'. auto.
    Qed.

    Section Plain.
      Context (dec : forall a b : C, {a = b} + {a <> b})
        (VRext : forall vm M M', VR vm M -> (forall c, In c M <-> In c M') -> VR vm M').
      Notation over := (Along edges edges_next targeto cost pass).

      Lemma passed_off : forall c x, In c board -> In x (map target (passed c)) -> ~ In x board ->
        forall vm, visit vm x = Ok (false, vm) /\ visited vm x = Ok false.
      Proof using Hin. clear - Hin. intros c x Hc Hx Hn. destruct Hn. apply (passed_in c); auto. Qed.

      Lemma passed_bfs : exists it l,
        bfs_new visit fresh start = Ok it /\ Drains (bfs_next pnb pnbn visit) it l /\
        hd_error l = Some start /\ NoDup l /\
        (forall c, In c l <-> exists p k, over start p k c) /\
        forall l1 a l2 b l3 p k, l = l1 ++ a :: l2 ++ b :: l3 -> over start p k b ->
          exists p' k', (length p' <= length p)%nat /\ over start p' k' a.
      Proof using Hedges Hdeg Htgt Hin Hvisit Hvisited VRext Hfresh Hstart dec.
        clear - Hedges Hdeg Htgt Hin Hvisit Hvisited VRext Hfresh Hstart dec. destruct (bfs_any pnb pnbn visit visited dec board (fun c => map target (passed c)) VR passed_nb
          passed_deg passed_off Hvisit Hvisited VRext start Hstart fresh Hfresh)
          as (it & l & E & HD & Hh & HN & Hi & HO).
        exists it, l. do 4 (split; [auto|]). split.
        - intros c. rewrite Hi. split.
          + intros (n & Hn). apply reached_over in Hn. destruct Hn as (p & k & P & _). eauto.
          + intros (p & k & P). destruct p as [|x p]; [inversion P|].
            exists (length p). apply reached_over. exists (x :: p), k. auto.
        - intros l1 a l2 b l3 p k El P. destruct p as [|x p]; [inversion P|].
          destruct (HO l1 a l2 b l3 (length p) El) as (j & J1 & J2).
          { apply reached_over. exists (x :: p), k. auto. }
          apply reached_over in J2. destruct J2 as (p' & k' & Q1 & Q2). exists p', k'.
          split; auto. rewrite Q2. cbn [length]. lia.
      Qed.

      Lemma passed_dfs : exists l,
        Drains (dfs_next pnb pnbn visit visited) (dfs_new fresh start) l /\
        hd_error l = Some start /\ NoDup l /\
        (forall c, In c l <-> exists p k, over start p k c).
      Proof using Hedges Hdeg Htgt Hin Hvisit Hvisited VRext Hfresh Hstart dec.
        clear - Hedges Hdeg Htgt Hin Hvisit Hvisited VRext Hfresh Hstart dec. destruct (dfs_any pnb pnbn visit visited dec board (fun c => map target (passed c)) VR passed_nb
          passed_deg passed_off Hvisit Hvisited VRext start Hstart fresh Hfresh)
          as (l & HD & Hh & HN & Hi & _).
        exists l. do 3 (split; [auto|]). intros c. rewrite Hi. split.
        - intros (n & Hn). apply reached_over in Hn. destruct Hn as (p & k & P & _). eauto.
        - intros (p & k & P). destruct p as [|x p]; [inversion P|].
          exists (length p). apply reached_over. exists (x :: p), k. auto.
      Qed.
    End Plain.

    Notation pround goal := (dijkstra_round eqb H edges pnext targeto cost visit visited goal).
    Notation pastar est goal := (astar_round eqb H edges pnext targeto cost est goal).
    Notation over := (Along edges edges_next targeto cost pass).

    Context (Hcost : forall a e, In a board -> EdgeAt edges edges_next a e -> pass e = true -> 0 <= cost e).
    Lemma passed_cost : forall c e, In c board -> In e (passed c) -> 0 <= cost e.
    Proof using Hcost Hedges.
      clear - Hcost Hedges. intros c e Hc He. apply filter_In in He. destruct He as [He Hp].
      apply (Hcost c e Hc); auto. apply at_out; auto.
    Qed.

    Lemma passed_dijkstra : forall goal, exists r,
      Returns (pround goal) (dijkstra_init eqb H fresh start) r /\
      (goal = None -> least_ways (over start) r) /\
      forall b, goal = Some b ->
        match r b with
        | Some x => (exists p, over start p x b) /\ forall p k, over start p k b -> x <= k
        | None => forall p k, ~ over start p k b
        end.
    Proof using Heqb HH Hedges Hdeg Htgt Hin Hvisit Hvisited Hfresh Hstart Hcost.
      clear - Heqb HH Hedges Hdeg Htgt Hin Hvisit Hvisited Hfresh Hstart Hcost. intros goal. apply view_dijkstra with (vout := passed).
      - exact passed_edges.
      - intros c _ e He. apply filter_In in He. tauto.
      - intros c _. apply filter_short.
      - exact passed_cost.
      - intros p k c. apply passed_route; auto.
    Qed.

    Lemma passed_astar : forall (est : C -> Z) (goal : C -> bool),
      (forall n, In n board -> goal n = true -> 0 <= est n) ->
      (forall n p k c, In n board -> goal c = true -> over n p k c -> est n <= k) ->
      exists r, Returns (pastar est goal) (astar_init eqb H est start) r /\
        cheapest_way (over start) goal r.
    Proof using Heqb HH Hedges Hdeg Hsize Htgt Hin Hstart Hcost.
      clear - Heqb HH Hedges Hdeg Hsize Htgt Hin Hstart Hcost. intros est goal Hpos Hadm. apply view_astar with (vout := passed); auto.
      - exact passed_edges.
      - intros c _ e He. apply filter_In in He. tauto.
      - intros c _. apply filter_short.
      - exact passed_cost.
      - intros p k c. apply passed_route; auto.
      - intros n p k c Hn Hg HR. apply (Hadm n p k c); auto. apply passed_route; auto.
    Qed.
  End Pass.
End Weighted.
