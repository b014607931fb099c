(** * ConnFault: counting components where an edge leads off the board. *)

From Verif Require Import Machine Store Axes Shapes Lattice Traverse Spec Spec11 Basics
  AxisProofs GeoProofs ShapeProofs StoreProofs GraphProofs RepProofs Main1 Main2 TraverseProofs
  Kruskal KruskalMain QuirkProofs AnySearch AnySearchMain Follow.
From Coq Require Import ZifyBool ZifyNat.
Ltac Zify.zify_post_hook ::= Z.div_mod_to_equations.

Lemma first_bad : forall X (P : X -> Prop), (forall x, {P x} + {~ P x}) ->
  forall l, (exists x, In x l /\ ~ P x) ->
  exists l1 x l2, l = l1 ++ x :: l2 /\ ~ P x /\ forall y, In y l1 -> P y.
Proof.
  intros X P dec. induction l as [|a l IH]; intros (x & Hx & Hn); [destruct Hx|].
  destruct (dec a) as [Ha|Ha].
  - destruct Hx as [->|Hx]; [contradiction|]. destruct IH as (l1 & y & l2 & -> & H1 & H2); eauto.
    exists (a :: l1), y, l2. split; auto. split; auto. intros z [<-|Hz]; auto.
  - exists [], a, l. split; auto. split; auto. intros z [].
Qed.

Section Lat.
  Context {A D N E : Type} {m : mode} {s : Shape Cell A D} {G : Geometry A D}
    (STO : Stored s G) (g : LatticeGraph Cell A D N E) (nf : Cell -> N) (ef : Cell -> A -> E)
    (HB : Built m s G g nf ef).
  Notation refs := (spec_edge_references G ef).
  Notation from := (fun e : EdgeReference Cell E D => Ok (er_source e)).
  Notation target := (fun e : EdgeReference Cell E D => Ok (er_target e)).

  Lemma ref_ends : forall e, In e refs -> In (er_source e) (geo_nodes G) /\
    exists d, geo_step G (er_source e) d = Some (er_target e).
  Proof.
    clear. intros e He. apply in_flat_map in He. destruct He as (c & Hc & He).
    apply in_flat_map in He. destruct He as (a & _ & He).
    destruct (geo_step G c (ag_fwd (geo_ax G) a)) eqn:Es; [|destruct He].
    destruct He as [<-|[]]. cbn [er_source er_target]. eauto.
  Qed.

  Lemma c82_fault : (exists r, In r refs /\ ~ In (er_target r) (geo_nodes G)) ->
    forall T (U : UFOps T), UFOK U ->
    connected_components U (node_bound m g) (to_index m g) (edge_references g)
      (edge_references_next m g) from target = Fail FPanic.
  Proof.
    intros HX T U (Rep & U1 & U2 & _).
    destruct (c05 STO g nf ef HB) as (B1 & B2 & B3 & B4).
    assert (IDX : forall c, In c (geo_nodes G) ->
      exists i, to_index m g c = Ok i /\ 0 <= i < Z.of_nat (length (geo_nodes G))).
    { intros c Hc. apply In_nth_error in Hc. destruct Hc as (i & Hi).
      exists (Z.of_nat i). split; [apply B4; auto|].
      assert (i < length (geo_nodes G))%nat by (apply nth_error_Some; congruence). lia. }
    destruct (first_bad _ (fun r => In (er_target r) (geo_nodes G))
      (fun r => in_dec cell_dec (er_target r) (geo_nodes G)) refs HX)
      as (l1 & r & l2 & El & Hr & Hl1).
    unfold connected_components. rewrite B1. cbn [bind].
    rewrite (for_each_exact _ _ _ _ _ _ _ _ (c15_drains STO g nf ef HB)
      (kl_length (m := m) STO ef)).
    rewrite El, fold_outcome_app.
    assert (FOLD : forall l es t, (forall e, In e l -> In e refs /\ In (er_target e) (geo_nodes G)) ->
      Rep t (Z.of_nat (length (geo_nodes G))) es ->
      exists t', fold_outcome (fun t e =>
        let! a := from e in
        let! b := target e in
        let! i := to_index m g a in
        let! j := to_index m g b in
        let! (_, t) := uf_union U t i j in Ok t) l t = Ok t').
    { induction l as [|e l IH]; intros es t Hl HRep.
      - exists t. auto.
      - destruct (Hl e (or_introl eq_refl)) as [He Ht]. destruct (ref_ends e He) as [Hs _].
        destruct (IDX _ Hs) as (i & I1 & I2). destruct (IDX _ Ht) as (j & J1 & J2).
        cbn [fold_outcome bind]. rewrite I1, J1. cbn [bind].
        destruct (U2 t _ es i j HRep I2 J2) as (x & t' & E1 & _ & R').
        rewrite E1. cbn [bind]. eapply IH; [|exact R']. intros; apply Hl; right; auto. }
    destruct (FOLD l1 [] (uf_new U (Z.of_nat (length (geo_nodes G))))) as (t' & F1).
    { intros e He. split; auto. rewrite El. apply in_or_app. auto. }
    { apply U1. lia. }
    match goal with |- (let! t := (let! s' := ?x in _) in _) = _ =>
      replace x with (Ok t' : outcome T) by (symmetry; exact F1) end.
    cbn [bind fold_outcome].
    assert (Hir : In r refs) by (rewrite El; apply in_or_app; right; left; auto).
    destruct (ref_ends r Hir) as [Hs (d & Hd)]. destruct (IDX _ Hs) as (i & I1 & I2).
    rewrite I1. cbn [bind].
    rewrite (c05_off_board STO g nf ef (er_target r) HB); auto.
    eapply step_locatable; eauto.
  Qed.
End Lat.

(** [OddQ]/[EvenQ] columns whose top row is lifted. *)
Lemma q_leak : forall b w h, fits w h -> 2 <= w -> 1 <= h -> h mod 2 <> co_q b ->
  let G := rect_code_geometry hexq_axes (hex_offset_q b w h) w h in
  exists c a t, In c (geo_nodes G) /\ In a (ag_axes (geo_ax G)) /\
    geo_step G c (ag_fwd (geo_ax G) a) = Some t /\ ~ In t (geo_nodes G).
Proof.
  intros b w h F C1 C2 C3 G. exists (0, h - 1), BNE, (1, h).
  split; [apply in_rect; lia|]. split; [cbn; tauto|]. split.
  - pose proof (proj1 (c31_off b w h Release F C1 C2 C3)) as E0.
    change (geo_step _ (0, h - 1) _) with
      (match sh_move_coord (hex_offset_q b w h) Release (0, h - 1) QNE with
       | Ok t => t | Fail _ => None end). rewrite E0. reflexivity.
  - intros H. apply in_rect in H. lia.
Qed.

Lemma leak_ref : forall A D E (G : Geometry A D) (ef : Cell -> A -> E),
  (exists c a t, In c (geo_nodes G) /\ In a (ag_axes (geo_ax G)) /\
    geo_step G c (ag_fwd (geo_ax G) a) = Some t /\ ~ In t (geo_nodes G)) ->
  exists r, In r (spec_edge_references G ef) /\ ~ In (er_target r) (geo_nodes G).
Proof.
  intros A D E G ef (c & a & t & Hc & Ha & Hs & Hn).
  exists (mkEdgeRef c t (ef c a) (ag_fwd (geo_ax G) a)). split; auto.
  apply in_flat_map. exists c. split; auto. apply in_flat_map. exists a. split; auto.
  rewrite Hs. left. auto.
Qed.

Lemma c82_leaky : forall A D N E (m : mode) (s : Shape Cell A D) (G : Geometry A D), Leaky s G ->
  forall (g : LatticeGraph Cell A D N E) nf ef, Built m s G g nf ef ->
  forall T (U : UFOps T), UFOK U ->
  connected_components U (node_bound m g) (to_index m g) (edge_references g)
    (edge_references_next m g) (fun e => Ok (er_source e)) (fun e => Ok (er_target e))
    = Fail FPanic.
Proof.
  intros A D N E m s G LK g nf ef HB T U UOK.
  pose proof (traversable_stored _ _ _ _ (leaky_traversable _ _ _ _ LK)) as STO.
  eapply c82_fault; eauto. apply leak_ref. apply (leaky_step _ _ _ _ LK).
Qed.

Lemma c82_columns : forall b w h N E (m : mode), fits w h -> 2 <= w -> 1 <= h ->
  h mod 2 <> co_q b ->
  let s := hex_offset_q b w h in let G := rect_code_geometry hexq_axes s w h in
  forall (g : LatticeGraph Cell AxisQ AxisDQ N E) nf ef, Built m s G g nf ef ->
  forall T (U : UFOps T), UFOK U ->
  connected_components U (node_bound m g) (to_index m g) (edge_references g)
    (edge_references_next m g) (fun e => Ok (er_source e)) (fun e => Ok (er_target e))
    = Fail FPanic.
Proof.
  intros b w h N E m F C1 C2 C3 s G g nf ef HB T U UOK.
  eapply (c82_fault (st_offset_q b w h F)); eauto. apply leak_ref. apply q_leak; auto.
Qed.
