(** * RepProofs: weights of built graphs. *)

From Verif Require Import Machine Store Axes Shapes Lattice Spec Basics AxisProofs GeoProofs
  GraphProofs.
From Coq Require Import ZifyBool ZifyNat.
Ltac Zify.zify_post_hook ::= Z.div_mod_to_equations.

Lemma array_uget_ok : forall A m (a : Array2 A) x y z,
  array_get a x y = Some z -> array_uget m a x y = Ok z.
Proof. intros. unfold array_uget. rewrite H. reflexivity. Qed.

Lemma NoDup_app : forall A (l1 l2 : list A), NoDup l1 -> NoDup l2 ->
  (forall x, In x l1 -> ~ In x l2) -> NoDup (l1 ++ l2).
Proof.
  induction l1 as [|x l1 IH]; intros l2 H1 H2 H; simpl; auto. inversion H1; subst.
  constructor.
  - rewrite in_app_iff. intros [Hi|Hi]; [contradiction|]. apply (H x); simpl; auto.
  - apply IH; auto. intros y Hy. apply H. simpl; auto.
Qed.

Definition cell_dec : forall a b : Cell, {a = b} + {a <> b}.
Proof. decide equality; apply Z.eq_dec. Defined.

(** ** Iterators described by the list of items still to come *)

Definition IterInv {St X} (next : St -> outcome (option X * St)) (P : St -> list X -> Prop)
  : Prop :=
  forall it l, P it l ->
  match l with
  | [] => exists it', next it = Ok (None, it') /\ next it' = Ok (None, it')
  | x :: l' => exists it', next it = Ok (Some x, it') /\ P it' l'
  end.

Lemma IterInv_drains : forall St X (next : St -> outcome (option X * St)) P it l,
  IterInv next P -> P it l -> Drains next it l.
Proof.
  intros St X next P it l HI. revert it. induction l as [|x l IH]; intros it H;
    pose proof (HI _ _ H) as Hn; simpl in Hn.
  - destruct Hn as (it' & H1 & H2). exists it, it'. split; [constructor|auto].
  - destruct Hn as (it' & H1 & H2). eapply Drains_cons; eauto.
Qed.

Lemma IterInv_consumed : forall St X (next : St -> outcome (option X * St)) P it l1 it1,
  IterInv next P -> Consumed next it l1 it1 -> forall l, P it l ->
  exists l2, l = l1 ++ l2 /\ P it1 l2.
Proof.
  intros St X next P it l1 it1 HI H. induction H as [it|it x it1 l it2 Hn Hc IH]; intros l0 HP.
  - exists l0; auto.
  - pose proof (HI _ _ HP) as Hi. destruct l0 as [|x' l0].
    + destruct Hi as (it' & H1 & _). congruence.
    + destruct Hi as (it' & H1 & H2). rewrite Hn in H1. injection H1 as <- <-.
      destruct (IH _ H2) as (l2 & -> & H3). exists l2; auto.
Qed.

Section R.
  Context {A D N E : Type} {m : mode} {s : Shape Cell A D} {G : Geometry A D}
    {cell : Z -> Z -> Cell} (RF : Refines m s G cell).
  Notation w := (sh_horizontal s).
  Notation h := (sh_vertical s).
  Notation ax := (sh_axis s).
  Notation geo := (geo_ax G).
  Notation graph := (LatticeGraph Cell A D N E).

  Let AX : AxisOK m ax geo := rf_axis _ _ _ _ RF.
  Notation bounds := (bounds RF).

  Definition opt_edge (ef : Cell -> A -> E) (c : Cell) (a : A) : option E :=
    match geo_step G c (ag_fwd geo a) with Some _ => Some (ef c a) | None => None end.

  Definition Rep (g : graph) (nf : Cell -> N) (ef : Cell -> A -> E) : Prop :=
    g_s g = s /\
    Content (s := s) (cell := cell) (g_nodes g) (g_edges g) (fun c => Some (nf c)) (opt_edge ef).

  (** [Content] depends on the functions only through the board. *)
  Lemma content_ext : forall (nodes : Array2 (option N)) (edges : list (Array2 (option E)))
    nf ef nf' ef',
    Content (s := s) (cell := cell) nodes edges nf ef ->
    (forall c, In c (geo_nodes G) -> nf c = nf' c) ->
    (forall c a, In c (geo_nodes G) -> ef c a = ef' c a) ->
    Content (s := s) (cell := cell) nodes edges nf' ef'.
  Proof using RF.
    intros nodes edges nf ef nf' ef' (H1 & H2 & H3 & H4) Hn He.
    split; auto. split; [|split; auto].
    - intros x y Hx Hy. rewrite <- Hn by (apply (cell_in RF); auto). auto.
    - intros a. destruct (H4 a) as (arr & Ha & Hb & Hc). exists arr. split; auto. split; auto.
      intros x y Hx Hy. rewrite <- He by (apply (cell_in RF); auto). auto.
  Qed.

  Lemma in_cell_edge_calls : forall c a c' axes,
    In (CallEdge c' a) (cell_edge_calls (G := G) c axes) <->
    c' = c /\ In a axes /\ geo_step G c (ag_fwd geo a) <> None.
  Proof.
    intros c a c' axes. unfold cell_edge_calls. rewrite in_flat_map. split.
    - intros (b & Hb & H). destruct (geo_step G c (ag_fwd geo b)) eqn:Es; [|destruct H].
      destruct H as [H|[]]. injection H as <- <-. repeat split; auto. congruence.
    - intros (-> & Ha & Hs). exists a. split; auto.
      destruct (geo_step G c (ag_fwd geo a)); [left; auto | congruence].
  Qed.

  Lemma in_spec_calls_node : forall c, In (CallNode c) (spec_calls G) <-> In c (geo_nodes G).
  Proof.
    intros c. unfold spec_calls. rewrite in_flat_map. split.
    - intros (c' & Hc & [H|H]); [congruence|]. exfalso.
      rewrite in_flat_map in H. destruct H as (a & _ & H).
      destruct (geo_step G c' (ag_fwd geo a)); [destruct H as [H|[]]; discriminate | destruct H].
    - intros H. exists c. split; auto. left; auto.
  Qed.

  Lemma in_spec_calls_edge : forall c a,
    In (CallEdge c a) (spec_calls G) <-> edge_exists G c a.
  Proof using AX.
    intros c a. unfold spec_calls, edge_exists. rewrite in_flat_map. split.
    - intros (c' & Hc & [H|H]); [discriminate|].
      apply (in_cell_edge_calls c' a c (ag_axes geo)) in H. destruct H as (-> & _ & H). auto.
    - intros [H1 H2]. exists c. split; auto. right.
      apply (in_cell_edge_calls c a c (ag_axes geo)). repeat split; auto. apply (all_axes_in AX).
  Qed.

  Lemma NoDup_flat_map : forall X Y (f : X -> list Y) l,
    NoDup l -> (forall x, In x l -> NoDup (f x)) ->
    (forall x x' y, In x l -> In x' l -> In y (f x) -> In y (f x') -> x = x') ->
    NoDup (flat_map f l).
  Proof.
    induction l as [|x l IH]; intros Hd Hf Hi; cbn [flat_map]; [constructor|].
    inversion Hd; subst. apply NoDup_app.
    - apply Hf; left; auto.
    - apply IH; auto; intros; [apply Hf | eapply Hi]; eauto; right; auto.
    - intros y Hy Hy'. rewrite in_flat_map in Hy'. destruct Hy' as (x' & Hx' & Hy').
      assert (x = x') by (eapply Hi; eauto; [left|right]; auto). subst. contradiction.
  Qed.

  Lemma cell_calls_nodup : forall c axes, NoDup axes ->
    NoDup (cell_edge_calls (G := G) c axes).
  Proof.
    intros c axes Hd. unfold cell_edge_calls. apply NoDup_flat_map; auto.
    - intros a _. destruct (geo_step G c (ag_fwd geo a)); [|constructor].
      constructor; [intros []|constructor].
    - intros a a' y _ _ H H'. destruct (geo_step G c (ag_fwd geo a)); [|destruct H].
      destruct (geo_step G c (ag_fwd geo a')); [|destruct H'].
      destruct H as [<-|[]]. destruct H' as [H'|[]]. congruence.
  Qed.

  Lemma spec_calls_nodup : NoDup (spec_calls G).
  Proof using AX RF.
    unfold spec_calls. apply NoDup_flat_map.
    - apply (nodes_nodup RF).
    - intros c _. constructor.
      + intros H. rewrite in_flat_map in H. destruct H as (a & _ & H).
        destruct (geo_step G c (ag_fwd geo a)); [destruct H as [H|[]]; discriminate | destruct H].
      + apply (cell_calls_nodup c). apply (axes_nodup AX).
    - intros c c' y _ _ H H'.
      destruct H as [<-|H].
      + destruct H' as [H'|H']; [congruence|]. exfalso.
        rewrite in_flat_map in H'. destruct H' as (a & _ & H').
        destruct (geo_step G c' (ag_fwd geo a)); [destruct H' as [H'|[]]; discriminate | destruct H'].
      + rewrite in_flat_map in H. destruct H as (a & _ & H).
        destruct (geo_step G c (ag_fwd geo a)); [|destruct H]. destruct H as [<-|[]].
        destruct H' as [H'|H']; [discriminate|].
        apply (in_cell_edge_calls c' a c (ag_axes geo)) in H'. tauto.
  Qed.

  (** The graph that [new_with] builds. *)
  Lemma new_with_calls : forall St (n : St -> Cell -> N * St) (e : St -> Cell -> A -> E * St) st,
    exists g nf ef, new_with s n e m st = Ok (g, state_after n e (spec_calls G) st) /\
      g_s g = s /\ Content (s := s) (cell := cell) (g_nodes g) (g_edges g) nf ef /\
      (forall l1 c l2, spec_calls G = l1 ++ CallNode c :: l2 ->
         nf c = Some (fst (n (state_after n e l1 st) c))) /\
      (forall l1 c a l2, spec_calls G = l1 ++ CallEdge c a :: l2 ->
         ef c a = Some (fst (e (state_after n e l1 st) c a))) /\
      (forall c, ~ In c (geo_nodes G) -> nf c = None) /\
      (forall c a, ~ edge_exists G c a -> ef c a = None).
  Proof using AX RF.
    intros St n e st.
    destruct (new_with_content RF n e st) as (g & nf & ef & st' & H1 & H2 & H3 & H4).
    destruct (do_call_state (s := s) n e (spec_calls G) (fun _ => None) (fun _ _ => None) st)
      as (nf0 & ef0 & H5).
    rewrite H4 in H5. injection H5 as _ _ Hst. subst st'.
    exists g, nf, ef. split; [auto|]. split; [auto|]. split; [auto|].
    pose proof spec_calls_nodup as Hnd.
    split; [|split; [|split]].
    - intros l1 c l2 Heq. rewrite Heq in Hnd, H4. apply NoDup_remove_2 in Hnd.
      eapply do_call_node; [|exact H4]. intros Hi. apply Hnd. apply in_or_app. auto.
    - intros l1 c a l2 Heq. rewrite Heq in Hnd, H4. apply NoDup_remove_2 in Hnd.
      eapply (do_call_edge RF); [|exact H4]. intros Hi. apply Hnd. apply in_or_app. auto.
    - intros c Hc. rewrite <- in_spec_calls_node in Hc.
      rewrite (do_call_other_node n e _ _ _ _ _ _ _ _ Hc H4). reflexivity.
    - intros c a Hc. rewrite <- in_spec_calls_edge in Hc.
      rewrite (do_call_other_edge RF n e _ _ _ _ _ _ _ _ _ Hc H4). reflexivity.
  Qed.

  Lemma new_with_rep : forall (nf : Cell -> N) (ef : Cell -> A -> E), exists g,
    new_with s (fun st c => (nf c, st)) (fun st c a => (ef c a, st)) m tt = Ok (g, tt) /\
    Rep g nf ef.
  Proof using AX RF.
    intros nf ef.
    destruct (new_with_calls unit (fun st c => (nf c, st)) (fun st c a => (ef c a, st)) tt)
      as (g & nf0 & ef0 & H1 & H2 & H3 & H4 & H5 & H6 & H7).
    exists g. split; [rewrite H1; destruct (state_after _ _ _ _); auto|].
    split; auto. eapply content_ext; eauto.
    - intros c Hc. apply in_spec_calls_node in Hc. apply in_split in Hc.
      destruct Hc as (l1 & l2 & Heq). rewrite (H4 _ _ _ Heq). reflexivity.
    - intros c a Hc. unfold opt_edge.
      destruct (geo_step G c (ag_fwd geo a)) eqn:Es.
      + assert (He : edge_exists G c a) by (split; [auto|congruence]).
        apply in_spec_calls_edge in He. apply in_split in He.
        destruct He as (l1 & l2 & Heq). rewrite (H5 _ _ _ _ Heq). reflexivity.
      + apply H7. intros [_ H]. congruence.
  Qed.

  (** ** Reads *)

  Lemma on_board_offset : forall c, In c (geo_nodes G) -> exists x y,
    0 <= x < w /\ 0 <= y < h /\ c = cell x y /\ sh_to_offset s m c = Ok (Some (x, y)) /\
    sh_to_offset_unchecked s m c = Ok (x, y).
  Proof using RF.
    intros c Hc. apply (node_cell RF) in Hc. destruct Hc as (x & y & Hx & Hy & ->).
    exists x, y. repeat split; auto; try lia.
    - apply (rf_offset _ _ _ _ RF); auto.
    - apply (rf_offset_unchecked _ _ _ _ RF); auto.
  Qed.

  Lemma content_node_weight : forall (g : graph) nf ef c x, g_s g = s ->
    Content (s := s) (cell := cell) (g_nodes g) (g_edges g) nf ef ->
    In c (geo_nodes G) -> nf c = Some x -> node_weight m g c = Ok (Some x).
  Proof using RF.
    intros g nf ef c x0 Hs (H1 & H2 & _) Hc Hx0. unfold node_weight. rewrite Hs.
    destruct (on_board_offset c Hc) as (x & y & Hx & Hy & -> & Ho & _). rewrite Ho. cbn [bind fst snd].
    rewrite (array_uget_ok _ _ _ _ _ _ (H2 x y Hx Hy)). cbn [bind]. rewrite Hx0. reflexivity.
  Qed.

  Lemma content_edge_weight : forall (g : graph) nf ef c a x, g_s g = s ->
    Content (s := s) (cell := cell) (g_nodes g) (g_edges g) nf ef ->
    edge_exists G c a -> ef c a = Some x -> edge_weight m g (c, a) = Ok (Some x).
  Proof using RF AX.
    intros g nf ef c a x0 Hs (H1 & H2 & H3 & H4) [Hc He] Hx0. unfold edge_weight. rewrite Hs.
    cbn [fst snd]. pose proof Hc as Hc'.
    destruct (on_board_offset c Hc) as (x & y & Hx & Hy & -> & Ho & _). rewrite Ho. cbn [bind fst snd].
    rewrite (ao_fwd _ _ _ AX). cbn [bind]. rewrite (rf_move _ _ _ _ RF) by auto. cbn [bind].
    destruct (geo_step G (cell x y) (ag_fwd geo a)); [|congruence].
    destruct (H4 a) as (arr & Ha & Hwf & Hg). unfold edges_get_unchecked. rewrite Ha. cbn [bind].
    rewrite (array_uget_ok _ _ _ _ _ _ (Hg x y Hx Hy)). cbn [bind]. rewrite Hx0. reflexivity.
  Qed.

  Lemma off_board_node_weight : forall (g : graph) c, g_s g = s -> geo_coord G c ->
    ~ In c (geo_nodes G) -> (m = Debug -> ~ geo_extreme G c) -> node_weight m g c = Ok None.
  Proof using RF.
    intros g c Hs Hc Hn Hx. unfold node_weight. rewrite Hs.
    rewrite (rf_off_board _ _ _ _ RF) by auto. reflexivity.
  Qed.

  Lemma off_board_edge_weight : forall (g : graph) c a, g_s g = s -> geo_coord G c ->
    ~ edge_exists G c a -> (m = Debug -> ~ geo_extreme G c) -> edge_weight m g (c, a) = Ok None.
  Proof using RF AX.
    intros g c a Hs Hc Hn Hx. unfold edge_weight. rewrite Hs. cbn [fst snd].
    destruct (in_dec cell_dec c (geo_nodes G))
      as [Hin|Hnin].
    - destruct (on_board_offset c Hin) as (x & y & Hx' & Hy & _ & Ho & _). rewrite Ho.
      cbn [bind fst snd]. rewrite (ao_fwd _ _ _ AX). cbn [bind].
      rewrite (rf_move _ _ _ _ RF) by auto. cbn [bind].
      destruct (geo_step G c (ag_fwd geo a)) eqn:Es; [|reflexivity].
      exfalso. apply Hn. split; auto. congruence.
    - rewrite (rf_off_board _ _ _ _ RF) by auto. reflexivity.
  Qed.

  Lemma rep_node_weight : forall g nf ef c, Rep g nf ef -> In c (geo_nodes G) ->
    node_weight m g c = Ok (Some (nf c)).
  Proof using RF. intros g nf ef c [Hs HC] Hc. eapply content_node_weight; eauto. Qed.

  Lemma opt_edge_some : forall ef c a, edge_exists G c a -> opt_edge ef c a = Some (ef c a).
  Proof.
    intros ef c a [_ H]. unfold opt_edge.
    destruct (geo_step G c (ag_fwd geo a)); [auto|congruence].
  Qed.

  Lemma rep_edge_weight : forall g nf ef c a, Rep g nf ef -> edge_exists G c a ->
    edge_weight m g (c, a) = Ok (Some (ef c a)).
  Proof using RF AX.
    intros g nf ef c a [Hs HC] Hc. eapply content_edge_weight; eauto.
    apply opt_edge_some; auto.
  Qed.

  (** ** Writes *)

  Lemma update_slot_ok : forall X (a : Array2 (option X)) x y f z,
    array_wf a w h -> 0 <= x < w -> 0 <= y < h -> array_get a x y = Some z ->
    update_slot m a (x, y) f = Ok (mkArray2 (nrows a) (ncols a)
      (list_set (cells a) (flat_index a x y) (f z))) /\
    array_set a x y (f z) = Some (mkArray2 (nrows a) (ncols a)
      (list_set (cells a) (flat_index a x y) (f z))).
  Proof.
    intros X a x y f z Hwf Hx Hy Hg. unfold update_slot. cbn [fst snd].
    rewrite (array_uget_ok _ _ _ _ _ _ Hg). cbn [bind].
    destruct (array_set_ok _ a w h x y (f z) Hwf Hx Hy) as (a' & H1 & _).
    unfold array_set in *. destruct (in_bounds a x y); [auto|discriminate].
  Qed.

  Lemma rep_node_write : forall g nf ef c f, Rep g nf ef -> In c (geo_nodes G) ->
    exists g', node_weight_mut m g c (fun o => option_map f o) = Ok (Some g') /\
      node_weight_mut_unchecked m g c (fun o => option_map f o) = Ok g' /\
      Rep g' (fun c' => if pair_eqb c' c then f (nf c') else nf c') ef.
  Proof using RF.
    intros g nf ef c f [Hs HC] Hc. pose proof HC as (H1 & H2 & H3 & H4).
    destruct (on_board_offset c Hc) as (x & y & Hx & Hy & -> & Ho & Hu).
    unfold node_weight_mut, node_weight_mut_unchecked. rewrite Hs, Ho, Hu. cbn [bind].
    destruct (update_slot_ok _ (g_nodes g) x y (fun o => option_map f o) _ H1 Hx Hy (H2 x y Hx Hy))
      as (U1 & U2).
    rewrite U1. cbn [bind]. eexists. split; [reflexivity|].
    unfold update_slot_unchecked. cbn [fst snd]. rewrite (H2 x y Hx Hy). cbn [unwrap_unchecked bind].
    rewrite U2. cbn [unwrap_unchecked bind]. split; [reflexivity|].
    split; [exact Hs|]. cbn [set_nodes g_nodes g_edges].
    destruct (content_set_node RF _ _ _ _ x y (Some (f (nf (cell x y)))) HC Hx Hy)
      as (nodes' & Hset & HC').
    cbn [option_map] in U2. rewrite U2 in Hset. injection Hset as <-.
    eapply content_ext; [exact HC' | |auto]. intros c' _. unfold set_node.
    destruct (pair_eqb c' (cell x y)) eqn:Eb; auto. apply pair_eqb_eq in Eb. congruence.
  Qed.

  Lemma rep_edge_write : forall g nf ef c a f, Rep g nf ef -> edge_exists G c a ->
    exists g', edge_weight_mut m g (c, a) (fun o => option_map f o) = Ok (Some g') /\
      edge_weight_mut_unchecked m g (c, a) (fun o => option_map f o) = Ok g' /\
      Rep g' nf (fun c' a' => if pair_eqb c' c && axis_eqb (s := s) a' a
                              then f (ef c' a') else ef c' a').
  Proof using RF AX.
    intros g nf ef c a f [Hs HC] Hca. pose proof Hca as [Hc He]. pose proof HC as (H1 & H2 & H3 & H4).
    pose proof Hc as Hc'.
    destruct (on_board_offset c Hc) as (x & y & Hx & Hy & -> & Ho & Hu).
    unfold edge_weight_mut, edge_weight_mut_unchecked. cbn [fst snd].
    rewrite Hs, Ho, Hu. cbn [bind].
    rewrite (ao_fwd _ _ _ AX). cbn [bind]. rewrite (rf_move _ _ _ _ RF) by auto. cbn [bind].
    destruct (geo_step G (cell x y) (ag_fwd geo a)) as [t|] eqn:Es; [|congruence].
    destruct (H4 a) as (arr & Ha & Hwf & Hg). unfold edges_get_unchecked. rewrite Ha. cbn [bind].
    pose proof (Hg x y Hx Hy) as Hgxy. unfold opt_edge in Hgxy. rewrite Es in Hgxy.
    destruct (update_slot_ok _ arr x y (fun o => option_map f o) _ Hwf Hx Hy Hgxy)
      as (U1 & U2).
    rewrite U1. cbn [bind]. eexists. split; [reflexivity|].
    unfold update_slot_unchecked. cbn [fst snd]. rewrite Hgxy. cbn [unwrap_unchecked bind].
    rewrite U2. cbn [unwrap_unchecked bind]. split; [reflexivity|].
    split; [exact Hs|]. cbn [set_edges g_nodes g_edges].
    destruct (content_set_edge RF _ _ _ _ x y a (Some (f (ef (cell x y) a))) arr HC Hx Hy Ha)
      as (arr' & Hset & HC').
    cbn [option_map] in U2. rewrite U2 in Hset. injection Hset as <-.
    eapply content_ext; [exact HC' | auto |]. intros c' a' Hin. unfold set_edge, opt_edge.
    destruct (pair_eqb c' (cell x y) && axis_eqb (s := s) a' a) eqn:Eb; auto.
    apply andb_true_iff in Eb. destruct Eb as [Eb1 Eb2]. apply pair_eqb_eq in Eb1.
    apply (axis_eqb_eq RF) in Eb2. subst. rewrite Es. reflexivity.
  Qed.

  Lemma off_board_node_write : forall (g : graph) c f, g_s g = s -> geo_coord G c ->
    ~ In c (geo_nodes G) -> (m = Debug -> ~ geo_extreme G c) -> node_weight_mut m g c f = Ok None.
  Proof using RF.
    intros g c f Hs Hc Hn Hx. unfold node_weight_mut. rewrite Hs.
    rewrite (rf_off_board _ _ _ _ RF) by auto. reflexivity.
  Qed.

  Lemma off_board_edge_write : forall (g : graph) c a f, g_s g = s -> geo_coord G c ->
    ~ edge_exists G c a -> (m = Debug -> ~ geo_extreme G c) ->
    edge_weight_mut m g (c, a) f = Ok None.
  Proof using RF AX.
    intros g c a f Hs Hc Hn Hx. unfold edge_weight_mut. rewrite Hs. cbn [fst snd].
    destruct (in_dec cell_dec c (geo_nodes G))
      as [Hin|Hnin].
    - destruct (on_board_offset c Hin) as (x & y & Hx' & Hy & _ & Ho & _). rewrite Ho.
      cbn [bind fst snd]. rewrite (ao_fwd _ _ _ AX). cbn [bind].
      rewrite (rf_move _ _ _ _ RF) by auto. cbn [bind].
      destruct (geo_step G c (ag_fwd geo a)) eqn:Es; [|reflexivity].
      exfalso. apply Hn. split; auto. congruence.
    - rewrite (rf_off_board _ _ _ _ RF) by auto. reflexivity.
  Qed.

  (** ** Graphs made by construction and writes *)

  Lemma rep_ext : forall g nf ef nf' ef', Rep g nf ef ->
    (forall c, In c (geo_nodes G) -> nf c = nf' c) ->
    (forall c a, edge_exists G c a -> ef c a = ef' c a) -> Rep g nf' ef'.
  Proof using RF.
    intros g nf ef nf' ef' [Hs HC] Hn He. split; auto.
    eapply content_ext; [exact HC | |].
    - intros c Hc. cbv beta. f_equal. auto.
    - intros c a Hc. unfold opt_edge. destruct (geo_step G c (ag_fwd geo a)) eqn:Es; auto.
      f_equal. apply He. split; auto. congruence.
  Qed.

  Lemma off_board_extreme : forall c, geo_coord G c -> ~ In c (geo_nodes G) ->
    sh_to_offset s m c = Ok None \/ (m = Debug /\ sh_to_offset s m c = Fail FPanic).
  Proof using RF.
    intros c Hc Hn.
    assert (Hm : m = Debug \/ m = Release) by (destruct m; auto).
    destruct Hm as [Hm|Hm];
      [|left; apply (rf_off_board _ _ _ _ RF); auto; rewrite Hm; discriminate].
    assert (Hno : forall x, sh_to_offset s m c <> Fail FPanic -> sh_to_offset s m c = x ->
      x = Ok None).
    { intros x Hne <-. apply (rf_off_board _ _ _ _ RF); auto. intros _ Hx. apply Hne.
      apply (rf_extreme _ _ _ _ RF); auto. }
    destruct (sh_to_offset s m c) as [o|f] eqn:Eo.
    - left. apply Hno; auto. discriminate.
    - right. split; auto. destruct f; auto; exfalso;
      specialize (Hno _ ltac:(discriminate) eq_refl); discriminate.
  Qed.

  (** ** Graphs whose weights are partly written *)

  Definition opt_exist (ef : Cell -> A -> option E) (c : Cell) (a : A) : option E :=
    match geo_step G c (ag_fwd geo a) with Some _ => ef c a | None => None end.

  Definition PRep (g : graph) (nf : Cell -> option N) (ef : Cell -> A -> option E) : Prop :=
    g_s g = s /\
    Content (s := s) (cell := cell) (g_nodes g) (g_edges g) nf (opt_exist ef).

  Lemma node_write_inv : forall (g g' : graph) c F, g_s g = s -> geo_coord G c ->
    node_weight_mut m g c F = Ok (Some g') -> In c (geo_nodes G).
  Proof using RF.
    intros g g' c F Hs Hc H. destruct (in_dec cell_dec c (geo_nodes G)); auto. exfalso.
    unfold node_weight_mut in H. rewrite Hs in H.
    destruct (off_board_extreme c Hc n) as [E1|[_ E1]]; rewrite E1 in H; discriminate.
  Qed.

  Lemma edge_write_inv : forall (g g' : graph) c a F, g_s g = s -> geo_coord G c ->
    edge_weight_mut m g (c, a) F = Ok (Some g') -> edge_exists G c a.
  Proof using RF AX.
    intros g g' c a F Hs Hc H. unfold edge_weight_mut in H. cbn [fst snd] in H. rewrite Hs in H.
    destruct (in_dec cell_dec c (geo_nodes G)) as [Hin|Hn].
    - split; auto. intros Es.
      destruct (on_board_offset c Hin) as (x0 & y0 & Hx0 & Hy0 & _ & Eo & _).
      rewrite Eo in H. cbn [bind] in H. rewrite (ao_fwd _ _ _ AX) in H. cbn [bind] in H.
      rewrite (rf_move _ _ _ _ RF) in H by auto. cbn [bind] in H. rewrite Es in H. discriminate.
    - exfalso. destruct (off_board_extreme c Hc Hn) as [E1|[_ E1]]; rewrite E1 in H; discriminate.
  Qed.

  Lemma prep_node_write : forall g nf ef c x, PRep g nf ef -> In c (geo_nodes G) ->
    exists g', node_weight_mut m g c (fun _ => Some x) = Ok (Some g') /\
      PRep g' (fun c' => if pair_eqb c' c then Some x else nf c') ef.
  Proof using RF.
    intros g nf ef c x0 [Hs HC] Hc. pose proof HC as (H1 & H2 & H3 & H4).
    destruct (on_board_offset c Hc) as (x & y & Hx & Hy & -> & Ho & Hu).
    unfold node_weight_mut. rewrite Hs, Ho. cbn [bind].
    destruct (update_slot_ok _ (g_nodes g) x y (fun _ => Some x0) _ H1 Hx Hy (H2 x y Hx Hy))
      as (U1 & U2).
    rewrite U1. cbn [bind]. eexists. split; [reflexivity|].
    split; [exact Hs|]. cbn [set_nodes g_nodes g_edges].
    destruct (content_set_node RF _ _ _ _ x y (Some x0) HC Hx Hy) as (nodes' & Hset & HC').
    cbv beta in U2. rewrite U2 in Hset. injection Hset as <-.
    eapply content_ext; [exact HC' | |auto]. intros c' _. unfold set_node. reflexivity.
  Qed.

  Lemma prep_edge_write : forall g nf ef c a x, PRep g nf ef -> edge_exists G c a ->
    exists g', edge_weight_mut m g (c, a) (fun _ => Some x) = Ok (Some g') /\
      PRep g' nf (fun c' a' => if pair_eqb c' c && axis_eqb (s := s) a' a
                               then Some x else ef c' a').
  Proof using RF AX.
    intros g nf ef c a x0 [Hs HC] Hca. pose proof Hca as [Hc He]. pose proof HC as (H1 & H2 & H3 & H4).
    pose proof Hc as Hc'.
    destruct (on_board_offset c Hc) as (x & y & Hx & Hy & -> & Ho & Hu).
    unfold edge_weight_mut. cbn [fst snd]. rewrite Hs, Ho. cbn [bind].
    rewrite (ao_fwd _ _ _ AX). cbn [bind]. rewrite (rf_move _ _ _ _ RF) by auto. cbn [bind].
    destruct (geo_step G (cell x y) (ag_fwd geo a)) as [t|] eqn:Es; [|congruence].
    destruct (H4 a) as (arr & Ha & Hwf & Hg). unfold edges_get_unchecked. rewrite Ha. cbn [bind].
    destruct (update_slot_ok _ arr x y (fun _ => Some x0) _ Hwf Hx Hy (Hg x y Hx Hy))
      as (U1 & U2).
    rewrite U1. cbn [bind]. eexists. split; [reflexivity|].
    split; [exact Hs|]. cbn [set_edges g_nodes g_edges].
    destruct (content_set_edge RF _ _ _ _ x y a (Some x0) arr HC Hx Hy Ha) as (arr' & Hset & HC').
    cbv beta in U2. rewrite U2 in Hset. injection Hset as <-.
    eapply content_ext; [exact HC' | auto |]. intros c' a' Hin. unfold set_edge, opt_exist.
    destruct (pair_eqb c' (cell x y) && axis_eqb (s := s) a' a) eqn:Eb; auto.
    apply andb_true_iff in Eb. destruct Eb as [Eb1 Eb2]. apply pair_eqb_eq in Eb1.
    apply (axis_eqb_eq RF) in Eb2. subst. rewrite Es. reflexivity.
  Qed.

  Lemma prep_ext : forall g nf ef nf' ef', PRep g nf ef ->
    (forall c, In c (geo_nodes G) -> nf c = nf' c) ->
    (forall c a, edge_exists G c a -> ef c a = ef' c a) -> PRep g nf' ef'.
  Proof using RF.
    intros g nf ef nf' ef' [Hs HC] Hn He. split; auto.
    eapply content_ext; [exact HC | auto |].
    intros c a Hc. unfold opt_exist. destruct (geo_step G c (ag_fwd geo a)) eqn:Es; auto.
    apply He. split; auto. congruence.
  Qed.

  Theorem filling_rep : forall g nf ef, Filling m s G g nf ef -> PRep g nf ef.
  Proof using AX RF.
    induction 1 as [g H | g nf ef c x nf' g' HB IH Hc H Hx Ho | g nf ef c a x ef' g' HB IH Hc H Hx Ho].
    - destruct (new_uninit_ok RF (N := N) (E := E)) as (g0 & H0 & Hs & HC). rewrite H in H0.
      injection H0 as <-. split; auto. eapply content_ext; [exact HC|auto|].
      intros c a _. unfold opt_exist. destruct (geo_step _ _ _); auto.
    - pose proof IH as [Hs _]. pose proof (node_write_inv _ _ _ _ Hs Hc H) as Hin.
      destruct (prep_node_write g nf ef c x IH Hin) as (g1 & H1 & HR).
      rewrite H in H1. injection H1 as <-. eapply prep_ext; [exact HR | |auto].
      intros c' _. cbv beta. destruct (pair_eqb c' c) eqn:Eb.
      + apply pair_eqb_eq in Eb. congruence.
      + symmetry. apply Ho. intros ->.
        rewrite (proj2 (pair_eqb_eq c c) eq_refl) in Eb. discriminate.
    - pose proof IH as [Hs _]. pose proof (edge_write_inv _ _ _ _ _ Hs Hc H) as Hin.
      destruct (prep_edge_write g nf ef c a x IH Hin) as (g1 & H1 & HR).
      rewrite H in H1. injection H1 as <-. eapply prep_ext; [exact HR | auto |].
      intros c' a' _. cbv beta. destruct (pair_eqb c' c && axis_eqb a' a) eqn:Eb.
      + apply andb_true_iff in Eb. destruct Eb as [Eb1 Eb2]. apply pair_eqb_eq in Eb1.
        apply (axis_eqb_eq RF) in Eb2. congruence.
      + symmetry. apply Ho. intros [= -> ->].
        rewrite (proj2 (pair_eqb_eq c c) eq_refl), (proj2 (axis_eqb_eq RF a a) eq_refl) in Eb.
        discriminate.
  Qed.

  Lemma prep_rep : forall g nf ef nf' ef', PRep g nf ef ->
    (forall c, In c (geo_nodes G) -> nf c = Some (nf' c)) ->
    (forall c a, edge_exists G c a -> ef c a = Some (ef' c a)) -> Rep g nf' ef'.
  Proof using RF.
    intros g nf ef nf' ef' [Hs HC] Hn He. split; auto.
    eapply content_ext; [exact HC | auto |].
    intros c a Hc. unfold opt_exist, opt_edge.
    destruct (geo_step G c (ag_fwd geo a)) eqn:Es; auto. apply He. split; auto. congruence.
  Qed.

  Theorem built_rep : forall g nf ef, Built m s G g nf ef -> Rep g nf ef.
  Proof using AX RF.
    induction 1 as [nf ef g H | g nf ef nf' ef' HF Hn He | g nf ef c x nf' g' HB IH Hc H Hx Ho | g nf ef c a x ef' g' HB IH Hc H Hx Ho].
    - destruct (new_with_rep nf ef) as (g0 & H0 & HR). rewrite H in H0. injection H0 as <-. auto.
    - apply (prep_rep _ _ _ _ _ (filling_rep _ _ _ HF)); auto.
    - pose proof (node_write_inv _ _ _ _ (proj1 IH) Hc H) as Hin.
      destruct (rep_node_write g nf ef c (fun _ => x) IH Hin) as (g1 & H1 & _ & HR).
      assert (Hg : g' = g1).
      { unfold node_weight_mut in H, H1. destruct IH as [Hs HC].
        pose proof HC as (W1 & W2 & _). rewrite Hs in *.
        destruct (on_board_offset c Hin) as (x0 & y0 & Hx0 & Hy0 & -> & Eo & _).
        rewrite Eo in H, H1. cbn [bind] in H, H1. unfold update_slot in H, H1. cbn [fst snd] in H, H1.
        rewrite (array_uget_ok _ _ _ _ _ _ (W2 x0 y0 Hx0 Hy0)) in H, H1.
        cbn [bind option_map] in H, H1. congruence. }
      subst g1. eapply rep_ext; [exact HR | |auto].
      intros c' _. cbv beta. destruct (pair_eqb c' c) eqn:Eb.
      + apply pair_eqb_eq in Eb. congruence.
      + symmetry. apply Ho. intros ->.
        rewrite (proj2 (pair_eqb_eq c c) eq_refl) in Eb. discriminate.
    - pose proof (edge_write_inv _ _ _ _ _ (proj1 IH) Hc H) as Hin.
      destruct (rep_edge_write g nf ef c a (fun _ => x) IH Hin) as (g1 & H1 & _ & HR).
      assert (Hg : g' = g1).
      { unfold edge_weight_mut in H, H1. destruct IH as [Hs HC]. cbn [fst snd] in H, H1.
        pose proof HC as (W1 & W2 & W3 & W4). rewrite Hs in *. destruct Hin as [Hin Hst].
        pose proof Hin as Hin'.
        destruct (on_board_offset c Hin) as (x0 & y0 & Hx0 & Hy0 & -> & Eo & _).
        rewrite Eo in H, H1. cbn [bind] in H, H1.
        rewrite (ao_fwd _ _ _ AX) in H, H1. cbn [bind] in H, H1.
        rewrite (rf_move _ _ _ _ RF) in H, H1 by auto. cbn [bind] in H, H1.
        destruct (geo_step G (cell x0 y0) (ag_fwd geo a)) eqn:Es; [|congruence].
        destruct (W4 a) as (arr & Ha & Hwf & Hget). unfold edges_get_unchecked in H, H1.
        rewrite Ha in H, H1. cbn [bind] in H, H1.
        unfold update_slot in H, H1. cbn [fst snd] in H, H1.
        rewrite (array_uget_ok _ _ _ _ _ _ (Hget x0 y0 Hx0 Hy0)) in H, H1.
        unfold opt_edge in H, H1. rewrite Es in H, H1.
        cbn [bind option_map] in H, H1. congruence. }
      subst g1. eapply rep_ext; [exact HR | auto |].
      intros c' a' _. cbv beta. destruct (pair_eqb c' c && axis_eqb a' a) eqn:Eb.
      + apply andb_true_iff in Eb. destruct Eb as [Eb1 Eb2]. apply pair_eqb_eq in Eb1.
        apply (axis_eqb_eq RF) in Eb2. congruence.
      + symmetry. apply Ho. intros [= -> ->].
        rewrite (proj2 (pair_eqb_eq c c) eq_refl), (proj2 (axis_eqb_eq RF a a) eq_refl) in Eb.
        discriminate.
  Qed.

  (** A write of any update is a write of the updated value. *)
  Lemma node_write_const : forall (g : graph) nf ef c F x, Rep g nf ef -> In c (geo_nodes G) ->
    F (Some (nf c)) = Some x ->
    node_weight_mut m g c F = node_weight_mut m g c (fun o => option_map (fun _ => x) o) /\
    node_weight_mut_unchecked m g c F =
      node_weight_mut_unchecked m g c (fun o => option_map (fun _ => x) o).
  Proof using RF.
    intros g nf ef c F x [Hs (H1 & H2 & _)] Hc HF.
    unfold node_weight_mut, node_weight_mut_unchecked. rewrite Hs.
    destruct (on_board_offset c Hc) as (x0 & y0 & Hx & Hy & -> & Ho & Hu). rewrite Ho, Hu. cbn [bind].
    unfold update_slot, update_slot_unchecked. cbn [fst snd].
    rewrite (array_uget_ok _ _ _ _ _ _ (H2 x0 y0 Hx Hy)), (H2 x0 y0 Hx Hy).
    cbn [bind unwrap_unchecked option_map]. rewrite HF. auto.
  Qed.

  Lemma edge_write_const : forall (g : graph) nf ef c a F x, Rep g nf ef -> edge_exists G c a ->
    F (Some (ef c a)) = Some x ->
    edge_weight_mut m g (c, a) F = edge_weight_mut m g (c, a) (fun o => option_map (fun _ => x) o) /\
    edge_weight_mut_unchecked m g (c, a) F =
      edge_weight_mut_unchecked m g (c, a) (fun o => option_map (fun _ => x) o).
  Proof using RF AX.
    intros g nf ef c a F x [Hs (H1 & H2 & H3 & H4)] Hca HF.
    pose proof (opt_edge_some ef c a Hca) as Hoe. destruct Hca as [Hc He].
    unfold edge_weight_mut, edge_weight_mut_unchecked. cbn [fst snd]. rewrite Hs.
    pose proof Hc as Hc'.
    destruct (on_board_offset c Hc) as (x0 & y0 & Hx & Hy & -> & Ho & Hu). rewrite Ho, Hu. cbn [bind].
    rewrite (ao_fwd _ _ _ AX). cbn [bind]. rewrite (rf_move _ _ _ _ RF) by auto. cbn [bind].
    destruct (geo_step G (cell x0 y0) (ag_fwd geo a)); [|congruence].
    destruct (H4 a) as (arr & Ha & Hwf & Hg). unfold edges_get_unchecked. rewrite Ha. cbn [bind].
    unfold update_slot, update_slot_unchecked. cbn [fst snd].
    rewrite (array_uget_ok _ _ _ _ _ _ (Hg x0 y0 Hx Hy)), (Hg x0 y0 Hx Hy), Hoe.
    cbn [bind unwrap_unchecked option_map]. rewrite HF. auto.
  Qed.

  Lemma built_node_write : forall (g : graph) nf ef c F x nf', Built m s G g nf ef ->
    In c (geo_nodes G) -> F (Some (nf c)) = Some x ->
    nf' c = x -> (forall c', c' <> c -> nf' c' = nf c') ->
    exists g', node_weight_mut m g c F = Ok (Some g') /\
      node_weight_mut_unchecked m g c F = Ok g' /\ Built m s G g' nf' ef.
  Proof using AX RF.
    intros g nf ef c F x nf' HB Hc HF H1 H2. pose proof (built_rep _ _ _ HB) as HR.
    destruct (node_write_const g nf ef c F x HR Hc HF) as (E1 & E2).
    destruct (node_write_const g nf ef c (fun _ => Some x) x HR Hc eq_refl) as (E3 & _).
    destruct (rep_node_write g nf ef c (fun _ => x) HR Hc) as (g' & W1 & W2 & _).
    exists g'. rewrite E1, E2. split; auto. split; auto.
    eapply built_node; eauto.
    - apply (rf_coord_ok _ _ _ _ RF). auto.
    - rewrite E3. exact W1.
  Qed.

  Lemma built_edge_write : forall (g : graph) nf ef c a F x ef', Built m s G g nf ef ->
    edge_exists G c a -> F (Some (ef c a)) = Some x ->
    ef' c a = x -> (forall c' a', (c', a') <> (c, a) -> ef' c' a' = ef c' a') ->
    exists g', edge_weight_mut m g (c, a) F = Ok (Some g') /\
      edge_weight_mut_unchecked m g (c, a) F = Ok g' /\ Built m s G g' nf ef'.
  Proof using AX RF.
    intros g nf ef c a F x ef' HB Hc HF H1 H2. pose proof (built_rep _ _ _ HB) as HR.
    destruct (edge_write_const g nf ef c a F x HR Hc HF) as (E1 & E2).
    destruct (edge_write_const g nf ef c a (fun _ => Some x) x HR Hc eq_refl) as (E3 & _).
    destruct (rep_edge_write g nf ef c a (fun _ => x) HR Hc) as (g' & W1 & W2 & _).
    exists g'. rewrite E1, E2. split; auto. split; auto.
    eapply built_edge; eauto.
    - apply (rf_coord_ok _ _ _ _ RF). apply Hc.
    - rewrite E3. exact W1.
  Qed.

  (** ** Unchecked reads *)

  Lemma rep_node_unchecked : forall (g : graph) nf ef c, Rep g nf ef -> In c (geo_nodes G) ->
    node_weight_unchecked m g c = Ok (nf c).
  Proof using RF.
    intros g nf ef c [Hs (H1 & H2 & _)] Hc. unfold node_weight_unchecked. rewrite Hs.
    destruct (on_board_offset c Hc) as (x & y & Hx & Hy & -> & _ & Hu). rewrite Hu. cbn [bind].
    unfold node_weight_unchecked_raw. cbn [fst snd]. rewrite (H2 x y Hx Hy). reflexivity.
  Qed.

  Lemma rep_edge_raw : forall (g : graph) nf ef c a o, Rep g nf ef -> edge_exists G c a ->
    sh_to_offset s m c = Ok (Some o) ->
    edge_weight_unchecked_raw g o (ax_to_index ax a) = Ok (ef c a).
  Proof using RF AX.
    intros g nf ef c a o [Hs (H1 & H2 & H3 & H4)] Hca Ho'.
    pose proof (opt_edge_some ef c a Hca) as Hoe. destruct Hca as [Hc He].
    destruct (on_board_offset c Hc) as (x & y & Hx & Hy & -> & Ho & Hu).
    rewrite Ho in Ho'. injection Ho' as <-.
    destruct (H4 a) as (arr & Ha & Hwf & Hg). unfold edge_weight_unchecked_raw, edges_get_unchecked.
    rewrite Ha. cbn [bind fst snd]. rewrite (Hg x y Hx Hy), Hoe. reflexivity.
  Qed.

  Lemma rep_edge_unchecked : forall (g : graph) nf ef c a, Rep g nf ef -> edge_exists G c a ->
    edge_weight_unchecked m g (c, a) = Ok (ef c a).
  Proof using RF AX.
    intros g nf ef c a HR Hca. unfold edge_weight_unchecked. cbn [fst snd].
    pose proof HR as [Hs _]. rewrite Hs.
    destruct (on_board_offset c (proj1 Hca)) as (x & y & Hx & Hy & _ & Ho & Hu).
    rewrite Hu. cbn [bind]. eapply rep_edge_raw; eauto.
  Qed.
End R.
