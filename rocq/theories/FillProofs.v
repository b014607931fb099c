(** * FillProofs: graphs filled through [new_uninit], writes and [assume_init]. *)

From Verif Require Import Machine Store Axes Shapes Lattice Spec Basics AxisProofs GeoProofs
  GraphProofs RepProofs ShapeProofs Main1 DropProofs.
From Coq Require Import ZifyBool ZifyNat.
Ltac Zify.zify_post_hook ::= Z.div_mod_to_equations.

Section Fill.
  Context {A D N E : Type} {m : mode} {s : Shape Cell A D} {G : Geometry A D}
    (STO : Stored s G).
  Notation graph := (LatticeGraph Cell A D N E).

  Lemma c68_start : exists g : graph, new_uninit m s = Ok g.
  Proof using STO.
    refine_store m STO. destruct (new_uninit_ok RF (N := N) (E := E)) as (g & H & _). eauto.
  Qed.

  Lemma c68_progress : forall (g : graph) nf ef, Filling m s G g nf ef ->
    (forall c w, In c (geo_nodes G) -> exists g', node_weight_mut m g c (fun _ => Some w) = Ok (Some g')) /\
    (forall c a w, edge_exists G c a ->
       exists g', edge_weight_mut m g (c, a) (fun _ => Some w) = Ok (Some g')).
  Proof using STO.
    intros g nf ef HF. refine_store m STO. pose proof (filling_rep RF _ _ _ HF) as HR. split.
    - intros c w Hc. destruct (prep_node_write RF g nf ef c w HR Hc) as (g' & H & _). eauto.
    - intros c a w Hc. destruct (prep_edge_write RF g nf ef c a w HR Hc) as (g' & H & _). eauto.
  Qed.

  Lemma c68_same : forall (g : graph) nf ef nf' ef', Filling m s G g nf ef ->
    (forall c, In c (geo_nodes G) -> nf c = Some (nf' c)) ->
    (forall c a, edge_exists G c a -> ef c a = Some (ef' c a)) ->
    new_with s (fun st c => (nf' c, st)) (fun st c a => (ef' c a, st)) m tt
    = Ok (assume_init g, tt).
  Proof using STO.
    intros g nf ef nf' ef' HF Hn He. pose proof (built_init m s G g nf ef nf' ef' HF Hn He) as HB.
    refine_store m STO. destruct (new_with_rep RF nf' ef') as (g0 & H0 & HR). rewrite H0.
    rewrite (rep_memory RF _ _ _ HR), (rep_memory RF _ _ _ (built_rep RF _ _ _ HB)). reflexivity.
  Qed.

  Lemma fill_nodes : forall (nf : Cell -> N) l (g : graph) nf0 ef0, Filling m s G g nf0 ef0 ->
    (forall c, In c l -> In c (geo_nodes G)) ->
    exists g' nf', Filling m s G g' nf' ef0 /\ (forall c, In c l -> nf' c = Some (nf c)) /\
      forall c, nf0 c = Some (nf c) -> nf' c = Some (nf c).
  Proof using STO.
    intros nf. induction l as [|c l IH]; intros g nf0 ef0 HF Hl.
    - exists g, nf0. split; auto. split; [intros c []|auto].
    - destruct (c68_progress _ _ _ HF) as [Hp _].
      destruct (Hp c (nf c) (Hl c (or_introl eq_refl))) as (g1 & H1).
      set (nf1 := fun c' => if pair_eqb c' c then Some (nf c) else nf0 c').
      assert (H11 : nf1 c = Some (nf c)).
      { unfold nf1. rewrite (proj2 (pair_eqb_eq c c) eq_refl). reflexivity. }
      assert (H12 : forall c', c' <> c -> nf1 c' = nf0 c').
      { intros c' Hc. unfold nf1. destruct (pair_eqb c' c) eqn:Eb; auto.
        apply pair_eqb_eq in Eb. contradiction. }
      assert (HF1 : Filling m s G g1 nf1 ef0).
      { refine_store m STO. eapply filling_node; eauto. apply (rf_coord_ok _ _ _ _ RF). apply Hl. left; auto. }
      destruct (IH g1 nf1 ef0 HF1 (fun c' H => Hl c' (or_intror H))) as (g' & nf' & HF' & H2 & H3).
      exists g', nf'. split; auto. split.
      + intros c' [<-|Hc']; auto.
      + intros c' H. apply H3. destruct (cell_dec c' c) as [->|Hne]; auto. rewrite H12; auto.
  Qed.

  Lemma fill_edges : forall (ef : Cell -> A -> E) l (g : graph) nf0 ef0, Filling m s G g nf0 ef0 ->
    (forall c a, In (c, a) l -> edge_exists G c a) ->
    exists g' ef', Filling m s G g' nf0 ef' /\ (forall c a, In (c, a) l -> ef' c a = Some (ef c a)) /\
      forall c a, ef0 c a = Some (ef c a) -> ef' c a = Some (ef c a).
  Proof using STO.
    intros ef. induction l as [|[c a] l IH]; intros g nf0 ef0 HF Hl.
    - exists g, ef0. split; auto. split; [intros c a []|auto].
    - destruct (c68_progress _ _ _ HF) as [_ Hp].
      destruct (Hp c a (ef c a) (Hl c a (or_introl eq_refl))) as (g1 & H1).
      set (ef1 := fun c' a' => if pair_eqb c' c && axis_eqb (s := s) a' a then Some (ef c a) else ef0 c' a').
      assert (Hx : forall c' a', pair_eqb c' c && axis_eqb (s := s) a' a = true <-> (c', a') = (c, a)).
      { intros c' a'. refine_store m STO. rewrite andb_true_iff, pair_eqb_eq, (axis_eqb_eq RF).
        split; [intros [-> ->]|intros [= -> ->]]; auto. }
      assert (H11 : ef1 c a = Some (ef c a)).
      { unfold ef1. rewrite (proj2 (Hx c a) eq_refl). reflexivity. }
      assert (H12 : forall c' a', (c', a') <> (c, a) -> ef1 c' a' = ef0 c' a').
      { intros c' a' Hc. unfold ef1. destruct (_ && _) eqn:Eb; auto. apply Hx in Eb. contradiction. }
      assert (HF1 : Filling m s G g1 nf0 ef1).
      { refine_store m STO. eapply filling_edge; eauto. apply (rf_coord_ok _ _ _ _ RF).
        apply (Hl c a). left; auto. }
      destruct (IH g1 nf0 ef1 HF1 (fun c' a' H => Hl c' a' (or_intror H))) as (g' & ef' & HF' & H2 & H3).
      exists g', ef'. split; auto. split.
      + intros c' a' [[= <- <-]|Hc']; auto.
      + intros c' a' H. apply H3.
        destruct (pair_eqb c' c && axis_eqb (s := s) a' a) eqn:Eb.
        * apply Hx in Eb. injection Eb as -> ->. auto.
        * rewrite H12; auto. intros Heq. apply Hx in Heq. congruence.
  Qed.

  (** Every pair of weight functions can be filled in. *)
  Lemma c68_reachable : forall nf' ef', exists (g : graph) nf ef, Filling m s G g nf ef /\
    (forall c, In c (geo_nodes G) -> nf c = Some (nf' c)) /\
    (forall c a, edge_exists G c a -> ef c a = Some (ef' c a)).
  Proof using STO.
    intros nf' ef'. destruct c68_start as (g0 & H0).
    destruct (fill_nodes nf' (geo_nodes G) g0 _ _ (filling_new m s G g0 H0) (fun c H => H))
      as (g1 & nf & HF1 & Hn & _).
    set (l := flat_map (fun c => flat_map (fun a =>
      match geo_step G c (ag_fwd (geo_ax G) a) with Some _ => [(c, a)] | None => [] end)
      (ag_axes (geo_ax G))) (geo_nodes G)).
    assert (Hl : forall c a, In (c, a) l <-> edge_exists G c a).
    { intros c a. unfold l, edge_exists. rewrite in_flat_map. split.
      - intros (c' & Hc & H). apply in_flat_map in H. destruct H as (a' & _ & H).
        destruct (geo_step G c' _) eqn:Es; [|destruct H]. destruct H as [[= -> ->]|[]].
        split; auto. congruence.
      - intros [Hc Hs]. exists c. split; auto. apply in_flat_map. exists a.
        split; [refine_store m STO; apply (all_axes_in (rf_axis _ _ _ _ RF))|].
        destruct (geo_step G c _); [left; auto|congruence]. }
    destruct (fill_edges ef' l g1 _ _ HF1 (fun c a => proj1 (Hl c a))) as (g & ef & HF & He & _).
    exists g, nf, ef. split; auto. split; auto. intros c a H. apply He, Hl, H.
  Qed.
End Fill.

(** ** Closures that panic *)

Section Panics.
  Context {A D N E : Type} {m : mode} {s : Shape Cell A D} {G : Geometry A D}
    {cell : Z -> Z -> Cell} (RF : Refines m s G cell).
  Notation w := (sh_horizontal s).
  Notation h := (sh_vertical s).
  Notation ax := (sh_axis s).
  Notation geo := (geo_ax G).
  Context {St : Type} (n : St -> Cell -> option N * St) (e : St -> Cell -> A -> option E * St).
  Let AX : AxisOK m ax geo := rf_axis _ _ _ _ RF.

  Lemma until_panic_app : forall l1 l2 st, until_panic n e (l1 ++ l2) st =
    let (ok, st') := until_panic n e l1 st in if ok then until_panic n e l2 st' else (false, st').
  Proof.
    induction l1 as [|[c|c a] l1 IH]; intros l2 st; cbn [until_panic app]; auto.
    - destruct (n st c) as [[x|] st']; auto.
    - destruct (e st c a) as [[x|] st']; auto.
  Qed.

  Lemma edges_loop_p : forall o c, In c (geo_nodes G) -> forall rest j st,
    (j + length rest = ax_COUNT ax)%nat ->
    exists rest' st' ok, new_edges_loop_p s e m o c j rest st = Ok (rest', st', ok) /\
      length rest' = length rest /\
      until_panic n e (cell_edge_calls (G := G) c (skipn j (ag_axes geo))) st = (ok, st').
  Proof using RF AX.
    intros o c Hc. induction rest as [|edge rest IH]; intros j st Hj; cbn [length] in Hj.
    - exists [], st, true. split; auto. split; auto.
      rewrite skipn_all2 by (rewrite <- (ao_count _ _ _ AX); lia). reflexivity.
    - rewrite (ao_count _ _ _ AX) in Hj.
      destruct (nth_error (ag_axes geo) j) as [a|] eqn:Ea; [|apply nth_error_None in Ea; lia].
      assert (Hskip : skipn j (ag_axes geo) = a :: skipn (S j) (ag_axes geo)).
      { clear - Ea. revert Ea. generalize j. generalize (ag_axes geo).
        induction l; intros [|k] H; simpl in *; try discriminate; try congruence.
        apply IHl; auto. }
      cbn [new_edges_loop_p]. rewrite (ao_from_index_unchecked _ _ _ AX _ _ Ea). cbn [bind].
      rewrite (ao_fwd _ _ _ AX). cbn [bind]. rewrite (rf_move _ _ _ _ RF) by auto. cbn [bind].
      rewrite Hskip. unfold cell_edge_calls. cbn [flat_map].
      assert (Hj' : (S j + length rest = ax_COUNT ax)%nat) by (rewrite (ao_count _ _ _ AX); lia).
      destruct (geo_step G c (ag_fwd geo a)) as [t|] eqn:Et.
      + cbn [app until_panic]. destruct (e st c a) as [[ex|] st1].
        * destruct (IH (S j) st1 Hj') as (rest' & st' & ok & R1 & R2 & R3). rewrite R1. cbn [bind].
          do 3 eexists. split; [reflexivity|]. split; [cbn [length]; lia|exact R3].
        * do 3 eexists. split; [reflexivity|]. split; reflexivity.
      + destruct (IH (S j) st Hj') as (rest' & st' & ok & R1 & R2 & R3). rewrite R1. cbn [bind].
        do 3 eexists. split; [reflexivity|]. split; [cbn [length]; lia|exact R3].
  Qed.

  Lemma fold_p : forall k nodes edges st, 0 <= k <= w * h ->
    length (cells nodes) = Z.to_nat (w * h) -> length edges = ax_COUNT ax ->
    exists nodes' edges' st' ok,
      fold_outcome (new_with_step_p s n e m) (zrange k) (nodes, edges, st, true)
        = Ok (nodes', edges', st', ok) /\
      length (cells nodes') = Z.to_nat (w * h) /\ length edges' = ax_COUNT ax /\
      until_panic n e (flat_map (cell_calls (G := G)) (map (fun i => cell (i / h) (i mod h)) (zrange k))) st
        = (ok, st').
  Proof using RF AX.
    intros k nodes edges st Hk Hn He. pose proof (proj1 Hk) as Hk0. revert Hk.
    pattern k. apply natlike_ind; [intros _ | | exact Hk0].
    - rewrite zrange_nonpos by lia. exists nodes, edges, st, true. auto.
    - intros i Hi IH Hk. destruct IH as (n1 & e1 & st1 & ok & R1 & R2 & R3 & R4); [lia|].
      unfold Z.succ. rewrite zrange_succ by lia. rewrite fold_outcome_app, R1. cbn [bind fold_outcome].
      rewrite map_app, flat_map_app, until_panic_app, R4. cbn [map flat_map]. rewrite app_nil_r.
      destruct ok.
      2:{ exists n1, e1, st1, false. auto. }
      destruct (index_split RF i ltac:(lia)) as (Hx & Hy & Hxy).
      unfold new_with_step_p. rewrite (index_to_offset_ok RF) by (auto; lia). cbn [bind].
      rewrite (rf_coord _ _ _ _ RF) by auto. cbn [bind].
      unfold cell_calls. cbn [until_panic].
      destruct (n st1 (cell (i / h) (i mod h))) as [[nw|] st2].
      2:{ exists n1, e1, st2, false. auto. }
      replace ((0 <=? i) && (i <? Z.of_nat (length (cells n1)))) with true by lia. cbn [bind].
      destruct (edges_loop_p (i / h, i mod h) (cell (i / h) (i mod h)) (cell_in RF _ _ Hx Hy) e1 0%nat st2)
        as (e2 & st3 & ok & S1 & S2 & S3); [cbn; lia|].
      rewrite S1. cbn [bind]. do 4 eexists. split; [reflexivity|]. cbn [cells].
      rewrite list_set_length. split; auto. split; [lia|exact S3].
  Qed.

  Lemma new_with_p_ok : forall st, let (ok, st') := until_panic n e (spec_calls G) st in
    if ok then exists g, new_with_p s n e m st = Ok (inl (g, st'))
    else new_with_p s n e m st = Ok (inr ([], st')).
  Proof using RF AX.
    intros st. unfold new_with_p. destruct (new_uninit_ok RF (N := N) (E := E)) as (u & Hu & Hs & HC).
    rewrite Hu. cbn [bind]. rewrite (node_count_ok RF). cbn [bind].
    destruct HC as ((_ & _ & W) & _ & L & _).
    destruct (fold_p (w * h) (g_nodes u) (g_edges u) st ltac:(pose proof (wh_range RF); lia))
      as (n1 & e1 & st1 & ok & R1 & R2 & R3 & R4); [lia|auto|].
    rewrite R1. cbn [bind]. unfold spec_calls. rewrite (nodes_map RF).
    change (fun c => CallNode c :: _) with (cell_calls (G := G)). rewrite R4.
    destruct ok; [eauto|]. reflexivity.
  Qed.
End Panics.

Section Total.
  Context {A D N E : Type} {m : mode} {s : Shape Cell A D}.
  Context {St : Type} (n : St -> Cell -> N * St) (e : St -> Cell -> A -> E * St).
  Let np := fun st c => (Some (fst (n st c)), snd (n st c)).
  Let ep := fun st c a => (Some (fst (e st c a)), snd (e st c a)).

  Lemma edges_loop_total : forall o c rest j st,
    new_edges_loop_p s ep m o c j rest st =
    match new_edges_loop s e m o c j rest st with
    | Ok (l, st') => Ok (l, st', true)
    | Fail f => Fail f
    end.
  Proof.
    intros o c. induction rest as [|edge rest IH]; intros j st; cbn [new_edges_loop_p new_edges_loop]; auto.
    destruct (ax_from_index_unchecked _ _ _) as [a|]; cbn [bind]; auto.
    destruct (ax_foward _ _ _) as [d|]; cbn [bind]; auto.
    destruct (sh_move_coord _ _ _ _) as [[t|]|]; cbn [bind]; auto.
    - unfold ep at 1. destruct (e st c a) as [ex st1]. cbn [fst snd]. rewrite IH.
      destruct (new_edges_loop s e m o c (S j) rest st1) as [[l st2]|]; reflexivity.
    - rewrite IH. destruct (new_edges_loop s e m o c (S j) rest st) as [[l st2]|]; reflexivity.
  Qed.

  Lemma fold_total : forall l nodes edges st,
    fold_outcome (new_with_step_p s np ep m) l (nodes, edges, st, true) =
    match fold_outcome (new_with_step s n e m) l (nodes, edges, st) with
    | Ok (a, b, st') => Ok (a, b, st', true)
    | Fail f => Fail f
    end.
  Proof.
    induction l as [|i l IH]; intros nodes edges st; cbn [fold_outcome]; auto.
    unfold new_with_step_p at 1, new_with_step at 1.
    destruct (sh_index_to_offset s i) as [o|]; cbn [bind]; auto.
    destruct (sh_offset_to_coordinate s m o) as [c|]; cbn [bind]; auto.
    unfold np at 1. destruct (n st c) as [nw st1]. cbn [fst snd].
    destruct (_ && _); cbn [bind]; auto. rewrite edges_loop_total.
    destruct (new_edges_loop s e m o c 0 edges st1) as [[l2 st2]|]; cbn [bind]; auto.
  Qed.

  Lemma new_with_p_total : forall st, new_with_p s np ep m st =
    match new_with s n e m st with Ok r => Ok (inl r) | Fail f => Fail f end.
  Proof.
    intros st. unfold new_with_p, new_with. destruct (new_uninit m s) as [u|]; cbn [bind]; auto.
    destruct (sh_node_count s m) as [k|]; cbn [bind]; auto. rewrite fold_total.
    destruct (fold_outcome (new_with_step s n e m) (zrange k) (g_nodes u, g_edges u, st))
      as [[[a b] st1]|]; reflexivity.
  Qed.
End Total.

Lemma c69 : forall (A D N E : Type) (m : mode) (s : Shape Cell A D) (G : Geometry A D), Stored s G ->
  forall St (n : St -> Cell -> option N * St) (e : St -> Cell -> A -> option E * St) st,
  let (ok, st') := until_panic n e (spec_calls G) st in
  if ok then exists g, new_with_p s n e m st = Ok (inl (g, st'))
  else new_with_p s n e m st = Ok (inr ([], st')).
Proof. intros A D N E m s G STO St n e st. refine_store m STO. apply (new_with_p_ok RF). Qed.
