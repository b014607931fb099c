(** * PartsProofs: every board is one piece, or falls apart, or panics (C82, C84 continued). *)

From Verif Require Import Machine Store Axes Shapes Lattice Spec Spec2 Spec8 Spec10 Spec11 Spec13 Basics AxisProofs
  GeoProofs StoreProofs LoopProofs GraphProofs RepProofs Main1 Astar Spec5 Kruskal Spec7 KruskalProofs KruskalRun
  KruskalMain OffboardMore ShapeProofs AnySearchMain Clients ClientsProofs ClientsMain Follow ConnFault DoubleProofs.
From Coq Require Import ZifyBool ZifyNat.
Ltac Zify.zify_post_hook ::= Z.div_mod_to_equations.

Lemma link_step : forall A D E (G : Geometry A D) (ef : Cell -> A -> E) c a t,
  In c (geo_nodes G) -> In a (ag_axes (geo_ax G)) -> geo_step G c (ag_fwd (geo_ax G) a) = Some t ->
  Linked (pairs (G := G) ef) c t.
Proof.
  intros A D E G ef c a t Hc Ha Hs. apply linked_edge. unfold pairs. apply in_map_iff.
  exists (mkEdgeRef c t (ef c a) (ag_fwd (geo_ax G) a)). split; auto.
  apply in_flat_map. exists c. split; auto. apply in_flat_map. exists a. split; auto.
  rewrite Hs. left. auto.
Qed.

(** Lines of cells, each linked in itself and with the line before. *)
Lemma lines_linked : forall (es : list (Cell * Cell)) (n l : Z) (cell : Z -> Z -> Cell),
  (forall i j, 0 <= i < n -> 0 <= j -> j + 1 < l -> Linked es (cell i j) (cell i (j + 1))) ->
  (forall i, 0 <= i -> i + 1 < n -> 1 <= l -> exists j k, 0 <= j < l /\ 0 <= k < l /\
     Linked es (cell i j) (cell (i + 1) k)) ->
  forall i j i' j', 0 <= i < n -> 0 <= j < l -> 0 <= i' < n -> 0 <= j' < l ->
  Linked es (cell i j) (cell i' j').
Proof.
  intros es n l cell HL HN.
  assert (L : forall i, 0 <= i < n -> forall k : nat, Z.of_nat k < l ->
    Linked es (cell i 0) (cell i (Z.of_nat k))).
  { intros i Hi. induction k as [|k IH]; intros Hk; [apply linked_refl|].
    eapply linked_trans; [apply IH; lia|]. rewrite Nat2Z.inj_succ. apply HL; lia. }
  assert (L2 : forall i j k, 0 <= i < n -> 0 <= j < l -> 0 <= k < l -> Linked es (cell i j) (cell i k)).
  { intros i j k Hi Hj Hk. pose proof (L i Hi (Z.to_nat j) ltac:(lia)) as A1.
    pose proof (L i Hi (Z.to_nat k) ltac:(lia)) as A2.
    rewrite Z2Nat.id in A1, A2 by lia. eapply linked_trans; [apply linked_sym; eauto|auto]. }
  assert (N : forall k : nat, Z.of_nat k < n -> 1 <= l -> Linked es (cell 0 0) (cell (Z.of_nat k) 0)).
  { induction k as [|k IH]; intros Hk Hl; [apply linked_refl|].
    eapply linked_trans; [apply IH; lia|]. rewrite Nat2Z.inj_succ.
    destruct (HN (Z.of_nat k) ltac:(lia) ltac:(lia) Hl) as (j & j' & Hj & Hj' & HX).
    eapply linked_trans; [apply (L2 _ 0 j); lia|]. eapply linked_trans; [exact HX|].
    apply L2; lia. }
  intros i j i' j' Hi Hj Hi' Hj'.
  pose proof (N (Z.to_nat i) ltac:(lia) ltac:(lia)) as A1.
  pose proof (N (Z.to_nat i') ltac:(lia) ltac:(lia)) as A2. rewrite Z2Nat.id in A1, A2 by lia.
  eapply linked_trans; [apply (L2 i j 0); lia|]. eapply linked_trans; [apply linked_sym, A1|].
  eapply linked_trans; [exact A2|]. apply L2; lia.
Qed.

Section Q.
  Context {A E : Type} (ax : AxisGeo A AxisDQ) (s : Shape Cell A AxisDQ) (b : HexQ) (w h : Z)
    (F : fits w h) (ef : Cell -> A -> E)
    (AX : forall d, In d [QN; QNE; QSE] -> exists a, In a (ag_axes ax) /\ ag_fwd ax a = d).
  Let G := rect_code_geometry ax s w h.

  Lemma rect_link : forall c d t, In c (board w h (fun x y => (x, y))) -> In d [QN; QNE; QSE] ->
    sh_move_coord s Release c d = Ok (Some t) -> Linked (pairs (G := G) ef) c t.
  Proof.
    intros c d t Hc Hd Hs. destruct (AX d Hd) as (a & Ha & Ea).
    apply (link_step _ _ _ G ef c a t); auto.
    change (match sh_move_coord s Release c (ag_fwd ax a) with Ok t => t | Fail _ => None end = Some t).
    rewrite Ea, Hs. auto.
  Qed.

  Lemma q_linked : sh_move_coord s = offset_move_q w h (q_flag b) ->
    w <= 1 \/ h = 0 \/ h mod 2 = co_q b ->
    forall c c', In c (geo_nodes G) -> In c' (geo_nodes G) -> Linked (pairs (G := G) ef) c c'.
  Proof.
    intros ES HC [x y] [x' y'] Hc Hc'.
    change (In (x, y) (board w h (fun x y => (x, y)))) in Hc.
    change (In (x', y') (board w h (fun x y => (x, y)))) in Hc'.
    apply in_rect in Hc, Hc'. pose proof (fits_bounds _ _ F) as B. rewrite IMAX1_val in B.
    assert (MV : forall x y d, 0 <= x < w -> 0 <= y < h ->
      sh_move_coord s Release (x, y) d = Ok (hd_opt (q_step b w h (x, y) d))).
    { intros u v d Hu Hv. rewrite ES. apply offset_q_off; auto; cbn [fst snd]; lia. }
    apply (lines_linked _ w h (fun x y => (x, y))); try lia.
    - intros i j Hi Hj Hj'. apply (rect_link _ QN); [apply in_rect; lia|cbn; auto|].
      rewrite MV by lia. unfold q_step, one_sided_step, vadd. cbn [fst snd q_vec].
      match goal with |- context [if ?c then _ else _] => replace c with true by lia end.
      cbn [hd_opt]. do 2 f_equal. apply pair_eq; lia.
    - intros i Hi Hi' Hh.
      destruct (lifted b (i, 0)) eqn:EL.
      + assert (H2 : 2 <= h). { destruct b; cbn in *; lia. }
        exists 0, 1. split; [lia|]. split; [lia|].
        apply (rect_link _ QNE); [apply in_rect; lia|cbn; auto|]. rewrite MV by lia.
        unfold q_step, one_sided_step, vadd, q_vec. rewrite EL. cbn [fst snd].
        match goal with |- context [if ?c then _ else _] => replace c with true by lia end.
        cbn [hd_opt]. reflexivity.
      + exists 0, 0. split; [lia|]. split; [lia|].
        apply (rect_link _ QNE); [apply in_rect; lia|cbn; auto|]. rewrite MV by lia.
        unfold q_step, one_sided_step, vadd, q_vec. rewrite EL. cbn [fst snd].
        match goal with |- context [if ?c then _ else _] => replace c with true by lia end.
        cbn [hd_opt]. reflexivity.
  Qed.

  Lemma q_loop_linked : sh_move_coord s = offset_move_q_lew w h (q_flag b) ->
    forall c c', In c (geo_nodes G) -> In c' (geo_nodes G) -> Linked (pairs (G := G) ef) c c'.
  Proof.
    intros ES [x y] [x' y'] Hc Hc'.
    change (In (x, y) (board w h (fun x y => (x, y)))) in Hc.
    change (In (x', y') (board w h (fun x y => (x, y)))) in Hc'.
    apply in_rect in Hc, Hc'. pose proof (fits_bounds _ _ F) as B. rewrite IMAX1_val in B.
    assert (MV : forall x y d, 0 <= x < w -> 0 <= y < h ->
      sh_move_coord s Release (x, y) d = Ok (hd_opt (q_loop_step b w h (x, y) d))).
    { intros u v d Hu Hv. rewrite ES. apply offset_q_loop_off; auto; cbn [fst snd]; lia. }
    apply (lines_linked _ h w (fun y x => (x, y))); try lia.
    - intros j i Hj Hi Hi'. apply (rect_link _ QN); [apply in_rect; lia|cbn; auto|].
      rewrite MV by lia. unfold q_loop_step. cbn [q_loop_vec].
      unfold one_sided_loop_step, vadd. cbn [fst snd].
      repeat match goal with |- context [if ?c then _ else _] => destruct c eqn:? end; try lia.
      cbn [hd_opt]. do 2 f_equal. apply pair_eq; lia.
    - intros j Hj Hj' Hw.
      destruct (lifted b (0, j)) eqn:EL.
      + exists 0. exists (if 1 <? w then 1 else 0).
        split; [lia|]. split; [destruct (1 <? w) eqn:?; lia|].
        apply (rect_link _ QNE); [apply in_rect; lia|cbn; auto|]. rewrite MV by lia.
        unfold q_loop_step, q_loop_vec. rewrite EL.
        unfold one_sided_loop_step, vadd. cbn [fst snd].
        repeat match goal with |- context [if ?c then _ else _] => destruct c eqn:? end; try lia;
          cbn [hd_opt]; reflexivity.
      + assert (EL2 : lifted b (0, j + 1) = true).
        { unfold lifted in *. cbn [snd] in *.
          destruct b; rewrite <- ?Z.add_1_r, ?Z.even_add, ?Z.odd_add; rewrite ?EL; reflexivity. }
        exists (if 1 <? w then 1 else 0), 0.
        split; [destruct (1 <? w) eqn:?; lia|]. split; [lia|]. apply linked_sym.
        apply (rect_link _ QSE); [apply in_rect; lia|cbn; auto|]. rewrite MV by lia.
        unfold q_loop_step, q_loop_vec. rewrite EL2.
        unfold one_sided_loop_step, vadd. cbn [fst snd].
        repeat match goal with |- context [if ?c then _ else _] => destruct c eqn:? end; try lia;
          cbn [hd_opt]; do 2 f_equal; apply pair_eq; lia.
  Qed.
End Q.

Section Axial.
  Context {A D E : Type} (ax : AxisGeo A D) (s : Shape Cell A D) (k : AxialKind) (co w h : Z)
    (Hco : 0 <= co <= 1) (ef : Cell -> A -> E) (vec : D -> Vec).
  Let G := axial_code_geometry ax s k co w h.
  Context (MV : forall c d, In c (board w h (axial_cell co)) ->
    sh_move_coord s Release c d = Ok (axial_loop_step co w h (vadd c (vec d)))).

  Lemma axial_linked : (exists a, In a (ag_axes ax) /\ vec (ag_fwd ax a) = (1, 0)) ->
    (exists a, In a (ag_axes ax) /\
       (vec (ag_fwd ax a) = (0, 1) \/ vec (ag_fwd ax a) = (0, -1))) ->
    w = 0 \/ h + co <= 2 ->
    forall c c', In c (geo_nodes G) -> In c' (geo_nodes G) -> Linked (pairs (G := G) ef) c c'.
  Proof.
    intros (a1 & Ha1 & V1) (a2 & Ha2 & V2) HC c c' Hc Hc'.
    change (In c (board w h (axial_cell co))) in Hc. change (In c' (board w h (axial_cell co))) in Hc'.
    apply in_board in Hc, Hc'. destruct Hc as (x & y & Hx & Hy & ->), Hc' as (x' & y' & Hx' & Hy' & ->).
    assert (LK : forall c a t, In c (board w h (axial_cell co)) -> In a (ag_axes ax) ->
      axial_loop_step co w h (vadd c (vec (ag_fwd ax a))) = Some t -> Linked (pairs (G := G) ef) c t).
    { intros c a t Hc Ha Hs. apply (link_step _ _ _ G ef c a t); auto.
      change (match sh_move_coord s Release c (ag_fwd ax a) with Ok t => t | Fail _ => None end = Some t).
      rewrite MV by auto. auto. }
    apply (lines_linked _ h w (fun y x => axial_cell co x y)); auto; clear x y x' y' Hx Hy Hx' Hy'.
    - intros y x Hy Hx Hx'. apply (LK _ a1); auto.
      + apply in_board. exists x, y. split; [lia|]. split; [lia|reflexivity].
      + rewrite V1. unfold axial_loop_step, vadd, axial_cell. cbn [fst snd].
        repeat match goal with |- context [if ?c then _ else _] => destruct c eqn:? end; try lia.
        f_equal. apply pair_eq; lia.
    - intros y Hy Hy' Hw. exists 0, 0. split; [lia|]. split; [lia|].
      assert (y = 0 /\ co = 0) as [-> ->] by lia.
      destruct V2 as [V2|V2]; [|apply linked_sym]; apply (LK _ a2); auto;
        try (apply in_board; eexists _, _; split; [|split; [|reflexivity]]; lia);
        rewrite V2; unfold axial_loop_step, vadd, axial_cell; cbn [fst snd];
        repeat match goal with |- context [if ?c then _ else _] => destruct c eqn:? end; try lia;
        f_equal; apply pair_eq; lia.
  Qed.
End Axial.

(** ** Boards in one piece *)

Lemma whole_stored : forall A D (s : Shape Cell A D) G, Whole s G -> Stored s G.
Proof.
  intros A D s G H. destruct H as [A D s G H|b w h F].
  - apply traversable_stored, enclosed_traversable, H.
  - apply st_offset_q_loop, F.
Qed.

Lemma whole_closed : forall A D (s : Shape Cell A D) G E (ef : Cell -> A -> E), Whole s G ->
  forall r, In r (spec_edge_references G ef) -> In (er_target r) (geo_nodes G).
Proof.
  intros A D s G E ef H r Hr. destruct (ref_ends ef r Hr) as [Hs (d & Hd)].
  destruct H as [A D s G H|b w h F].
  - eapply enclosed_in; eauto.
  - change (match sh_move_coord (hex_offset_q_lew b w h) Release (er_source r) d with
      | Ok t => t | Fail _ => None end = Some (er_target r)) in Hd.
    destruct (sh_move_coord (hex_offset_q_lew b w h) Release (er_source r) d) as [o|] eqn:Eo;
      [|discriminate]. subst o.
    exact (q_loop_step_in b w h (er_source r) d (er_target r) F Hs Eo).
Qed.

Lemma hexq_fwd : forall d, In d [QN; QNE; QSE] ->
  exists a, In a (ag_axes hexq_axes) /\ ag_fwd hexq_axes a = d.
Proof.
  intros d [<-|[<-|[<-|[]]]]; [exists BN|exists BNE|exists BSE]; cbn; auto.
Qed.
Lemma hexq_dir_fwd : forall d, In d [QN; QNE; QSE] ->
  exists a, In a (ag_axes (directed_axes hexq_axes)) /\ ag_fwd (directed_axes hexq_axes) a = d.
Proof. intros d [<-|[<-|[<-|[]]]]; eexists; split; try reflexivity; cbn; auto. Qed.

Definition r_vec (d : AxisDR) : Vec := ((fst (hexr_vec d) - snd (hexr_vec d)) / 2, snd (hexr_vec d)).
Definition q_vec' (d : AxisDQ) : Vec := (fst (hexq_vec d), (snd (hexq_vec d) - fst (hexq_vec d)) / 2).

Lemma r_loop_move : forall k b w h c d, fits w h -> axial_fits k (co_r b) w h ->
  In c (board w h (axial_cell (co_r b))) ->
  sh_move_coord (hex_axial_r_lew k b w h) Release c d =
    Ok (axial_loop_step (co_r b) w h (vadd c (r_vec d))).
Proof.
  intros k b w h [r q] d F Hf Hin. apply axial_loop_r_exact; auto.
  destruct d; unfold r_vec, axial_r_pos, vadd; cbn [hexr_vec fst snd]; apply pair_eq; lia.
Qed.
Lemma q_loop_move : forall k b w h c d, fits w h -> axial_fits k (co_q b) w h ->
  In c (board w h (axial_cell (co_q b))) ->
  sh_move_coord (hex_axial_q_lew k b w h) Release c d =
    Ok (axial_loop_step (co_q b) w h (vadd c (q_vec' d))).
Proof.
  intros k b w h [r q] d F Hf Hin. apply axial_loop_q_exact; auto.
  destruct d; unfold q_vec', axial_q_pos, vadd; cbn [hexq_vec fst snd]; apply pair_eq; lia.
Qed.

Lemma whole_linked : forall A D (s : Shape Cell A D) G E (ef : Cell -> A -> E), Whole s G ->
  forall c c', In c (geo_nodes G) -> In c' (geo_nodes G) -> Linked (pairs (G := G) ef) c c'.
Proof.
  intros A D s G E ef H. destruct H as [A D s G EN|b w h F].
  2:{ apply (q_loop_linked hexq_axes (hex_offset_q_lew b w h) b w h F ef hexq_fwd). reflexivity. }
  destruct EN as [A D s G SUP|b w h F C|b w h F C|b w h F C|k b w h F Hf C|k b w h F Hf C
    |k b w h F Hf C|k b w h F Hf C|w h F C].
  - apply (sup_linked SUP).
  - apply (q_linked hexq_axes (hex_offset_q b w h) b w h F ef hexq_fwd); auto.
  - apply (q_linked (directed_axes hexq_axes) (hex_offset_q_dir b w h) b w h F ef hexq_dir_fwd); auto.
  - apply (q_loop_linked hexq_axes (hex_offset_q_lew b w h) b w h F ef hexq_fwd). reflexivity.
  - apply (axial_linked hexr_axes (hex_axial_r_lew k b w h) k (co_r b) w h (co_r_range b) ef r_vec); auto.
    + intros c d Hc. apply r_loop_move; auto.
    + exists AE. cbn. auto 6.
    + exists ANE. cbn. auto 6.
  - apply (axial_linked (directed_axes hexr_axes) (hex_axial_r_dir_lew k b w h) k (co_r b) w h
      (co_r_range b) ef r_vec); auto.
    + intros c d Hc. apply r_loop_move; auto.
    + exists RE. cbn. auto 6.
    + exists RNE. cbn. auto 6.
  - apply (axial_linked hexq_axes (hex_axial_q_lew k b w h) k (co_q b) w h (co_q_range b) ef q_vec'); auto.
    + intros c d Hc. apply q_loop_move; auto.
    + exists BNE. cbn. auto 6.
    + exists BN. cbn. auto 6.
  - apply (axial_linked (directed_axes hexq_axes) (hex_axial_q_dir_lew k b w h) k (co_q b) w h
      (co_q_range b) ef q_vec'); auto.
    + intros c d Hc. apply q_loop_move; auto.
    + exists QNE. cbn. auto 6.
    + exists QN. cbn. auto 6.
  - intros c c' Hc Hc'. destruct c as [x y], c' as [x' y'].
    change (In (x, y) (board w h double_cell)) in Hc.
    change (In (x', y') (board w h double_cell)) in Hc'. apply in_double in Hc, Hc'.
    assert (w = 1 /\ h = 1) as [-> ->] by nia.
    replace (x', y') with (x, y) by (apply pair_eq; lia). apply linked_refl.
Qed.

Section WholeClients.
  Context {A D N : Type} {m : mode} {s : Shape Cell A D} {G : Geometry A D} (WH : Whole s G).

  Lemma c82_whole : forall E (g : LatticeGraph Cell A D N E) nf ef, Built m s G g nf ef ->
    forall T (U : UFOps T), UFOK U ->
    connected_components U (node_bound m g) (to_index m g) (edge_references g)
      (edge_references_next m g) (fun e => Ok (er_source e)) (fun e => Ok (er_target e)) =
    Ok (match geo_nodes G with [] => 0 | _ => 1 end).
  Proof.
    intros E g nf ef HB T U UOK.
    rewrite (kl_count (whole_stored _ _ _ _ WH) g nf ef HB (whole_closed _ _ _ _ _ ef WH) U UOK).
    rewrite (ncl_one cell_dec) by (apply (whole_linked _ _ s G _ ef WH)).
    destruct (geo_nodes G); auto.
  Qed.

  Lemma c84_whole : (m = Release \/
      Z.of_nat (length (geo_nodes G)) * Z.of_nat (ax_UNDIRECTED_COUNT (sh_axis s)) < 2 ^ 64) ->
    forall (g : LatticeGraph Cell A D N Z) nf ef, Built m s G g nf ef ->
    forall T (U : UFOps T), UFOK U -> forall H : HeapOps (Cell * Cell), HeapOK H ->
    exists it K R,
    mst_new U H (node_bound m g) (edge_references g) (edge_references_next m g)
      (edge_references_size_hint m g (edge_references g)) (fun e => Ok (er_source e))
      (fun e => Ok (er_target e)) er_weight (node_references g) = Ok it /\
    Drains (mst_next U H (to_index m g) (node_references_next m g)) it
      (map (fun c => ENode (nf c)) (geo_nodes G) ++ R) /\
    Forall2 (Stands_for (geo_nodes G)) R K /\
    MinSpanningForest (geo_nodes G) (map seen (spec_edge_references G ef)) K /\
    Connects (geo_nodes G) K /\ length K = pred (length (geo_nodes G)).
  Proof.
    intros HINT g nf ef HB T U UOK H HOK.
    pose proof (whole_stored _ _ _ _ WH) as STO. pose proof (whole_closed _ _ _ _ _ ef WH) as CL.
    destruct (c84_forest STO g nf ef HB HINT CL T U UOK H HOK)
      as (it & K & R & P1 & P2 & P3 & P4).
    exists it, K, R. repeat (split; [solve [auto]|]).
    assert (HC : Connects (geo_nodes G) (map seen (spec_edge_references G ef))).
    { intros a b Ha Hb. unfold Spec7.ends. rewrite map_map.
      apply (whole_linked _ _ s G Z ef WH a b Ha Hb). }
    split; [eapply mst_connects; eauto|].
    eapply mst_length; eauto.
    - exact cell_dec.
    - apply (c05 STO g nf ef HB).
    - intros a b w Hi. apply in_map_iff in Hi. destruct Hi as (r & E1 & Hr). unfold seen in E1.
      injection E1 as <- <- _. apply (kl_ends (G := G) ef CL r Hr).
  Qed.

  Lemma c90_whole : forall E (g : LatticeGraph Cell A D N E) nf ef, Built m s G g nf ef ->
    forall T (U : UFOps T), UFOK U -> geo_nodes G <> [] ->
    is_cyclic_undirected U (node_bound m g) (to_index m g) (edge_references g)
      (edge_references_next m g) (fun e => Ok (er_source e)) (fun e => Ok (er_target e)) =
    Ok (Nat.leb (length (geo_nodes G)) (length (spec_edge_references G ef))).
  Proof.
    intros E g nf ef HB T U UOK HN.
    pose proof (whole_stored _ _ _ _ WH) as STO. pose proof (whole_closed _ _ _ _ _ ef WH) as CL.
    destruct (c05 STO g nf ef HB) as (B1 & B2 & B3 & B4).
    apply (cyclic_connected (Ed := EdgeReference Cell E D) cell_dec U UOK)
      with (src := er_source) (tgt := er_target); auto.
    - intros i c Hi. apply B4. auto.
    - apply (c15_drains STO g nf ef HB).
    - apply (kl_length (m := m) STO ef); auto.
    - apply (kl_ends ef CL).
    - apply (whole_linked _ _ s G E ef WH).
  Qed.
End WholeClients.

(** ** The table of pieces *)

Lemma parts_every : forall A D (s : Shape Cell A D) G, Stored s G -> exists r, Parts s G r.
Proof.
  intros A D s G STO.
  destruct (every_shape _ _ s G STO) as [EN|[LK|UN]].
  - eexists. apply pa_whole, wh_enclosed, EN.
  - eexists. apply pa_leaky, LK.
  - destruct UN as [b w h F W H C|b w h F W H C|w h F C].
    + eexists. apply pa_offset_q; auto.
    + eexists. apply pa_whole, wh_offset_q_loop; auto.
    + pose proof (fits_bounds _ _ F) as B. destruct (Z.eq_dec w 1) as [->|Hw].
      * eexists. apply pa_double_column; auto.
      * eexists. apply pa_double; auto; nia.
Qed.

Lemma c82_parts : forall A D (s : Shape Cell A D) (G : Geometry A D) r, Parts s G r ->
  forall N E (m : mode) (g : LatticeGraph Cell A D N E) nf ef, Built m s G g nf ef ->
  forall T (U : UFOps T), UFOK U ->
  connected_components U (node_bound m g) (to_index m g) (edge_references g)
    (edge_references_next m g) (fun e => Ok (er_source e)) (fun e => Ok (er_target e)) = r.
Proof.
  intros A D s G r HP. destruct HP as [A D s G WH|A D s G LK|b w h F W H C|w h F W H|h F];
    intros N E m g nf ef HB T U UOK.
  - eapply c82_whole; eauto.
  - eapply c82_leaky; eauto.
  - eapply c82_columns; eauto.
  - rewrite (c82_double F g nf ef HB T U UOK). f_equal.
    replace (w =? 1) with false by lia.
    change (geo_nodes (double_code_geometry w h)) with (board w h double_cell).
    assert (In (0, 0) (board w h double_cell)) as HI by (apply in_double; lia).
    destruct (board w h double_cell); [destruct HI|reflexivity].
  - rewrite (c82_double F g nf ef HB T U UOK). f_equal.
    change (1 =? 1) with true. cbv iota.
    change (geo_nodes (double_code_geometry 1 h)) with (board 1 h double_cell).
    pose proof (fits_bounds _ _ F) as B. rewrite board_length by lia. lia.
Qed.

(** ** Cycles *)

(** Where every cell has an edge of its own there are as many edges as cells. *)
Lemma refs_many : forall A D E (G : Geometry A D) (ef : Cell -> A -> E),
  (forall c, In c (geo_nodes G) -> exists a, In a (ag_axes (geo_ax G)) /\
     geo_step G c (ag_fwd (geo_ax G) a) <> None) ->
  (length (geo_nodes G) <= length (spec_edge_references G ef))%nat.
Proof.
  intros A D E G ef H. unfold spec_edge_references.
  induction (geo_nodes G) as [|c l IH]; [auto|]. cbn [flat_map length]. rewrite app_length.
  assert (1 <= length (flat_map (fun a => match geo_step G c (ag_fwd (geo_ax G) a) with
    | Some t => [mkEdgeRef c t (ef c a) (ag_fwd (geo_ax G) a)] | None => [] end)
    (ag_axes (geo_ax G))))%nat as H1.
  { destruct (H c (or_introl eq_refl)) as (a & Ha & Hs).
    destruct (geo_step G c (ag_fwd (geo_ax G) a)) as [t|] eqn:Et; [|congruence].
    match goal with |- (1 <= length ?l)%nat => destruct l eqn:El end; [exfalso|cbn [length]; lia].
    assert (HI : In (mkEdgeRef c t (ef c a) (ag_fwd (geo_ax G) a)) []).
    { rewrite <- El. apply in_flat_map. exists a. split; auto. rewrite Et. left. auto. }
    destruct HI. }
  specialize (IH (fun c' Hc' => H c' (or_intror Hc'))). lia.
Qed.

(** Edges that each lead one level up, no two from the same level, close no cycle. *)
Lemma levels_forest : forall (es : list (Cell * Cell)) (lv : Cell -> Z) (key : Cell * Cell -> Z),
  NoDup (map key es) ->
  (forall a b, In (a, b) es -> (lv a <= key (a, b) /\ key (a, b) < lv b) \/
                               (lv b <= key (a, b) /\ key (a, b) < lv a)) ->
  (forall a b k, In (a, b) es -> k <> key (a, b) -> (lv a <= k <-> lv b <= k)) ->
  Forest es.
Proof.
  intros es lv key ND H1 H2 l1 a b l2 Eq HL. subst es.
  rewrite map_app in ND. cbn [map] in ND. apply NoDup_remove_2 in ND.
  set (k := key (a, b)) in *.
  assert (INV : forall u v, Linked l1 u v -> (lv u <= k <-> lv v <= k)).
  { intros u v L. induction L as [u v Hi|u|u v L IH|u v x L1 IH1 L2 IH2]; try tauto.
    apply H2; [apply in_or_app; auto|]. intros Ek. apply ND. rewrite Ek. apply in_or_app. left.
    apply in_map_iff. eauto. }
  specialize (INV a b HL). 
  assert (HI : In (a, b) (l1 ++ (a, b) :: l2)) by (apply in_or_app; right; left; auto).
  specialize (H1 a b HI).
  fold k in H1. lia.
Qed.

Lemma pairs_keys : forall A D E (G : Geometry A D) (ef : Cell -> A -> E) (key : Cell * Cell -> Z),
  NoDup (geo_nodes G) -> NoDup (ag_axes (geo_ax G)) ->
  (forall c a t c' a' t', In c (geo_nodes G) -> In c' (geo_nodes G) ->
     geo_step G c (ag_fwd (geo_ax G) a) = Some t -> geo_step G c' (ag_fwd (geo_ax G) a') = Some t' ->
     key (c, t) = key (c', t') -> c = c' /\ a = a') ->
  NoDup (map key (pairs (G := G) ef)).
Proof.
  intros A D E G ef key N1 N2 INJ. unfold pairs. rewrite map_map.
  unfold spec_edge_references.
  assert (MF : forall X Y Z (f : Y -> Z) (g : X -> list Y) l,
    map f (flat_map g l) = flat_map (fun x => map f (g x)) l).
  { intros X Y Z f g l. induction l as [|x l IH]; cbn [flat_map map]; auto. rewrite map_app, IH. auto. }
  rewrite MF. apply NoDup_flat_map; auto.
  - intros c Hc. rewrite MF. apply NoDup_flat_map; auto.
    + intros a _. destruct (geo_step G c (ag_fwd (geo_ax G) a)); repeat constructor; auto.
    + intros a a' z Ha Ha' Hz Hz'.
      destruct (geo_step G c (ag_fwd (geo_ax G) a)) as [t|] eqn:Et; [|destruct Hz].
      destruct (geo_step G c (ag_fwd (geo_ax G) a')) as [t'|] eqn:Et'; [|destruct Hz'].
      destruct Hz as [Hz|[]]. destruct Hz' as [Hz'|[]]. cbn [er_source er_target] in Hz, Hz'.
      destruct (INJ c a t c a' t' Hc Hc Et Et'); congruence.
  - intros c c' z Hc Hc' Hz Hz'. rewrite MF in Hz, Hz'.
    apply in_flat_map in Hz, Hz'. destruct Hz as (a & Ha & Hz), Hz' as (a' & Ha' & Hz').
    destruct (geo_step G c (ag_fwd (geo_ax G) a)) as [t|] eqn:Et; [|destruct Hz].
    destruct (geo_step G c' (ag_fwd (geo_ax G) a')) as [t'|] eqn:Et'; [|destruct Hz'].
    destruct Hz as [Hz|[]]. destruct Hz' as [Hz'|[]]. cbn [er_source er_target] in Hz, Hz'.
    destruct (INJ c a t c' a' t' Hc Hc' Et Et'); congruence.
Qed.

Lemma last_of_three : forall X (dec : forall a b : X, {a = b} + {a <> b}) (x y z : X) l,
  x <> y -> y <> z -> x <> z -> In x l -> In y l -> In z l ->
  exists l1 l2, (l = l1 ++ x :: l2 /\ In y l1 /\ In z l1) \/ (l = l1 ++ y :: l2 /\ In x l1 /\ In z l1) \/
    (l = l1 ++ z :: l2 /\ In x l1 /\ In y l1).
Proof.
  intros X dec x y z l Dxy Dyz Dxz. induction l as [|e l IH] using rev_ind; intros Hx Hy Hz; [destruct Hx|].
  assert (IN : forall u, In u (l ++ [e]) -> u <> e -> In u l).
  { intros u Hu Ne. apply in_app_or in Hu. destruct Hu as [Hu|[Hu|[]]]; auto. congruence. }
  destruct (dec x e) as [<-|Nx].
  { exists l, []. left. split; auto. }
  destruct (dec y e) as [<-|Ny].
  { exists l, []. right. left. split; auto. }
  destruct (dec z e) as [<-|Nz].
  { exists l, []. right. right. split; auto. }
  destruct IH as (l1 & l2 & H); auto. exists l1, (l2 ++ [e]).
  destruct H as [(E & H)|[(E & H)|(E & H)]]; [left|right; left|right; right]; split; auto;
    rewrite E, <- app_assoc; reflexivity.
Qed.

Lemma triangle : forall (es : list (Cell * Cell)) a b c, a <> b -> b <> c -> a <> c ->
  In (a, b) es -> In (a, c) es -> In (c, b) es -> ~ Forest es.
Proof.
  intros es a b c N1 N2 N3 H1 H2 H3 HF.
  assert (dec : forall p q : Cell * Cell, {p = q} + {p <> q}).
  { intros p q. decide equality; apply cell_dec. }
  assert (L : forall (l : list (Cell * Cell)) u v, In (u, v) l -> Linked l u v) by (intros; apply linked_edge; auto).
  destruct (last_of_three _ dec (a, b) (a, c) (c, b) es) as (l1 & l2 & HX); auto; try congruence.
  destruct HX as [(E & I1 & I2)|[(E & I1 & I2)|(E & I1 & I2)]]; apply (HF l1 _ _ l2 E).
  - eapply linked_trans; [apply L, I1|apply L, I2].
  - eapply linked_trans; [apply L, I1|apply linked_sym, L, I2].
  - eapply linked_trans; [apply linked_sym, L, I2|apply L, I1].
Qed.

(** Columns of the right parity: every cell has an edge, unless there is one column only. *)
Lemma q_edge : forall b w h x y, fits w h -> 2 <= w -> h mod 2 = co_q b -> 0 <= x < w -> 0 <= y < h ->
  exists d, In d [QNE; QSE] /\ q_step b w h (x, y) d <> [].
Proof.
  intros b w h x y F Hw HP Hx Hy.
  assert (LF : lifted b (x, y) = true -> y + 1 < h).
  { unfold lifted. cbn [snd]. intros HL. destruct b; cbn [co_q] in HP.
    - apply Z.even_spec in HL. destruct HL as (z & ->). lia.
    - apply Z.odd_spec in HL. destruct HL as (z & ->). lia. }
  destruct (Z.lt_ge_cases (x + 1) w) as [Hx'|Hx'].
  - exists QNE. split; [left; auto|]. unfold q_step, one_sided_step, q_vec, vadd.
    destruct (lifted b (x, y)); cbn [fst snd];
      match goal with |- context [if ?c then _ else _] => replace c with true by lia end; discriminate.
  - exists QSE. split; [right; left; auto|]. unfold q_step, one_sided_step, q_vec, vadd.
    destruct (lifted b (x, y)); cbn [fst snd]; specialize (LF ltac:(auto)) || idtac;
      match goal with |- context [if ?c then _ else _] => replace c with true by lia end; discriminate.
Qed.

Section QEdges.
  Context {A E : Type} (ax : AxisGeo A AxisDQ) (s : Shape Cell A AxisDQ) (b : HexQ) (w h : Z)
    (F : fits w h) (ES : sh_move_coord s = offset_move_q w h (q_flag b)).
  Let G := rect_code_geometry ax s w h.

  Lemma q_geo_step : forall x y d, 0 <= x < w -> 0 <= y < h ->
    geo_step G (x, y) d = hd_opt (q_step b w h (x, y) d).
  Proof using F ES.
    intros x y d Hx Hy. pose proof (fits_bounds _ _ F) as B. rewrite IMAX1_val in B.
    change (match sh_move_coord s Release (x, y) d with Ok t => t | Fail _ => None end =
      hd_opt (q_step b w h (x, y) d)).
    rewrite ES, offset_q_off; auto; cbn [fst snd]; lia.
  Qed.

  Lemma q_many : forall ef : Cell -> A -> E,
    (forall x y, 0 <= x < w -> 0 <= y < h -> exists a, In a (ag_axes ax) /\
       q_step b w h (x, y) (ag_fwd ax a) <> []) ->
    (length (geo_nodes G) <= length (spec_edge_references G ef))%nat.
  Proof using F ES.
    intros ef H. apply refs_many. intros [x y] Hc.
    change (In (x, y) (board w h (fun x y => (x, y)))) in Hc. apply in_rect in Hc.
    destruct (H x y ltac:(lia) ltac:(lia)) as (a & Ha & Hs). exists a. split; [exact Ha|].
    change (geo_step G (x, y) (ag_fwd ax a) <> None). rewrite q_geo_step by lia.
    destruct (q_step b w h (x, y) (ag_fwd ax a)); [congruence|discriminate].
  Qed.
End QEdges.

Section Ring.
  Context {A D N E : Type} {m : mode} {s : Shape Cell A D} {G : Geometry A D} (STO : Stored s G)
    (g : LatticeGraph Cell A D N E) (nf : Cell -> N) (ef : Cell -> A -> E) (HB : Built m s G g nf ef)
    {T : Type} (U : UFOps T) (UOK : UFOK U)
    (CL : forall r, In r (spec_edge_references G ef) -> In (er_target r) (geo_nodes G)).
  Notation answer := (is_cyclic_undirected U (node_bound m g) (to_index m g) (edge_references g)
    (edge_references_next m g) (fun e => Ok (er_source e)) (fun e => Ok (er_target e))).

  Lemma ring_false : Forest (pairs (G := G) ef) -> answer = Ok false.
  Proof.
    intros HF. destruct (c90_iff STO g nf ef HB CL U UOK) as (x & E1 & HX). rewrite E1. f_equal.
    apply HX. exact HF.
  Qed.
  Lemma ring_true : ~ Forest (pairs (G := G) ef) -> answer = Ok true.
  Proof.
    intros HF. destruct (c90_iff STO g nf ef HB CL U UOK) as (x & E1 & HX). rewrite E1. f_equal.
    destruct x; auto. destruct HF. apply HX. auto.
  Qed.
End Ring.

Lemma whole_ring : forall A D N E (m : mode) (s : Shape Cell A D) (G : Geometry A D), Whole s G ->
  forall (g : LatticeGraph Cell A D N E) nf ef, Built m s G g nf ef ->
  forall T (U : UFOps T), UFOK U -> geo_nodes G <> [] ->
  (length (geo_nodes G) <= length (spec_edge_references G ef))%nat ->
  is_cyclic_undirected U (node_bound m g) (to_index m g) (edge_references g)
    (edge_references_next m g) (fun e => Ok (er_source e)) (fun e => Ok (er_target e)) = Ok true.
Proof.
  intros A D N E m s G WH g nf ef HB T U UOK HN HL.
  rewrite (c90_whole WH E g nf ef HB T U UOK HN). f_equal. apply Nat.leb_le. auto.
Qed.

Lemma axial_many : forall A D E (ax : AxisGeo A D) (s : Shape Cell A D) k co w h (ef : Cell -> A -> E)
  (vec : D -> Vec), 0 <= co <= 1 ->
  (forall c d, In c (board w h (axial_cell co)) ->
    sh_move_coord s Release c d = Ok (axial_loop_step co w h (vadd c (vec d)))) ->
  (exists a, In a (ag_axes ax) /\ vec (ag_fwd ax a) = (1, 0)) ->
  let G := axial_code_geometry ax s k co w h in
  (length (geo_nodes G) <= length (spec_edge_references G ef))%nat.
Proof.
  intros A D E ax s k co w h ef vec Hco MV (a & Ha & V) G. apply refs_many. intros [x y] Hc.
  change (In (x, y) (board w h (axial_cell co))) in Hc. exists a. split; [exact Ha|].
  change (match sh_move_coord s Release (x, y) (ag_fwd ax a) with Ok t => t | Fail _ => None end <> None).
  rewrite MV, V by auto. apply in_axial in Hc. unfold axial_loop_step, vadd, half_row in *. cbn [fst snd] in *.
  repeat match goal with |- context [if ?c then _ else _] => destruct c eqn:? end; try discriminate; lia.
Qed.

Lemma c90_ringed : forall A D (s : Shape Cell A D) (G : Geometry A D) x, Ringed s G x ->
  forall N E (m : mode) (g : LatticeGraph Cell A D N E) nf ef, Built m s G g nf ef ->
  geo_nodes G <> [] -> forall T (U : UFOps T), UFOK U ->
  is_cyclic_undirected U (node_bound m g) (to_index m g) (edge_references g)
    (edge_references_next m g) (fun e => Ok (er_source e)) (fun e => Ok (er_target e)) = Ok x.
Proof.
  intros A D s G x HR. destruct HR as [b w h F C|b w h F C|b w h F|k b w h F Hf C|k b w h F Hf C
    |k b w h F Hf C|k b w h F Hf C|w h F]; intros N E m g nf ef HB HN T U UOK;
    pose proof (fits_bounds _ _ F) as B; rewrite IMAX1_val in B.
  - assert (NE : exists x y, 0 <= x < w /\ 0 <= y < h).
    { change (board w h (fun x y => (x, y)) <> []) in HN.
      destruct (board w h (fun x y => (x, y))) as [|[x y] l] eqn:El; [congruence|].
      exists x, y. assert (In (x, y) (board w h (fun x y => (x, y)))) as Hi by (rewrite El; left; auto).
      apply in_rect in Hi. lia. }
    destruct NE as (x0 & y0 & Hx0 & Hy0).
    assert (WH : Whole (hex_offset_q b w h) (rect_code_geometry hexq_axes (hex_offset_q b w h) w h))
      by (apply wh_enclosed, en_offset_q; auto).
    destruct (Z.ltb_spec 1 w) as [Hw|Hw].
    + apply (whole_ring _ _ _ _ _ _ _ WH g nf ef HB T U UOK HN).
      apply (q_many hexq_axes (hex_offset_q b w h) b w h F eq_refl). intros x y Hx Hy.
      destruct (q_edge b w h x y F ltac:(lia) ltac:(lia) Hx Hy) as (d & [<-|[<-|[]]] & Hd);
        [exists BNE|exists BSE]; cbn [ag_axes hexq_axes ag_fwd In]; auto.
    + apply (ring_false (whole_stored _ _ _ _ WH) g nf ef HB U UOK (whole_closed _ _ _ _ _ ef WH)).
      assert (w = 1) by lia. subst w.
      assert (ST : forall x y a t, In (x, y) (board 1 h (fun x y => (x, y))) ->
        geo_step (rect_code_geometry hexq_axes (hex_offset_q b 1 h) 1 h) (x, y) (ag_fwd hexq_axes a) = Some t ->
        x = 0 /\ a = BN /\ t = (0, y + 1)).
      { intros x y a t Hc Hs. apply in_rect in Hc.
        rewrite (q_geo_step hexq_axes (hex_offset_q b 1 h) b 1 h F eq_refl) in Hs by lia.
        split; [lia|]. replace x with 0 in Hs by lia.
        unfold q_step, one_sided_step, q_vec, vadd in Hs.
        destruct a; cbn [ag_fwd hexq_axes] in Hs; destruct (lifted b (0, y)); cbn [fst snd] in Hs;
          match type of Hs with context [if ?c then _ else _] => destruct c eqn:Ec end;
          cbn [hd_opt] in Hs; try discriminate; try lia; injection Hs as <-; auto. }
      assert (PR : forall a t, In (a, t) (pairs (G := rect_code_geometry hexq_axes (hex_offset_q b 1 h) 1 h) ef) ->
        snd t = snd a + 1).
      { intros [x y] t Hi. unfold pairs in Hi. apply in_map_iff in Hi. destruct Hi as (r & Er & Hr).
        apply in_flat_map in Hr. destruct Hr as ([x' y'] & Hc & Hr). apply in_flat_map in Hr.
        destruct Hr as (a & _ & Hr).
        destruct (geo_step _ _ _) as [t'|] eqn:Es in Hr; [|destruct Hr]. destruct Hr as [<-|[]].
        cbn [er_source er_target] in Er. injection Er as <- <- <-.
        destruct (ST _ _ _ _ Hc Es) as (_ & _ & ->). reflexivity. }
      apply (levels_forest _ snd (fun e => snd (fst e))).
      * apply pairs_keys.
        -- apply (c05 (whole_stored _ _ _ _ WH) g nf ef HB).
        -- cbn [geo_ax rect_code_geometry code_geometry hexq_axes ag_axes].
           repeat constructor; cbn [In]; intuition congruence.
        -- intros [x y] a t [x' y'] a' t' Hc Hc' Hs Hs' Hk. cbn [fst snd] in Hk.
           destruct (ST _ _ _ _ Hc Hs) as (-> & -> & _), (ST _ _ _ _ Hc' Hs') as (-> & -> & _).
           subst y'. auto.
      * intros a t Hi. apply PR in Hi. cbn [fst snd]. lia.
      * intros a t k Hi Hk. apply PR in Hi. cbn [fst snd] in Hk. lia.
  - assert (NE : exists x y, 0 <= x < w /\ 0 <= y < h).
    { change (board w h (fun x y => (x, y)) <> []) in HN.
      destruct (board w h (fun x y => (x, y))) as [|[x y] l] eqn:El; [congruence|].
      exists x, y. assert (In (x, y) (board w h (fun x y => (x, y)))) as Hi by (rewrite El; left; auto).
      apply in_rect in Hi. lia. }
    destruct NE as (x0 & y0 & Hx0 & Hy0).
    assert (WH : Whole (hex_offset_q_dir b w h)
      (rect_code_geometry (directed_axes hexq_axes) (hex_offset_q_dir b w h) w h))
      by (apply wh_enclosed, en_offset_q_dir; auto).
    destruct (Z.ltb_spec 1 (w * h)) as [Hw|Hw].
    + apply (whole_ring _ _ _ _ _ _ _ WH g nf ef HB T U UOK HN).
      apply (q_many (directed_axes hexq_axes) (hex_offset_q_dir b w h) b w h F eq_refl). intros x y Hx Hy.
      destruct (Z.eq_dec w 1) as [->|Hw1].
      * destruct (Z.lt_ge_cases (y + 1) h); [exists QN|exists QS];
          (split; [cbn; auto|]); cbn [ag_fwd directed_axes];
          unfold q_step, one_sided_step, q_vec, vadd; cbn [fst snd];
          match goal with |- context [if ?c then _ else _] => replace c with true by lia end; discriminate.
      * destruct (q_edge b w h x y F ltac:(lia) ltac:(lia) Hx Hy) as (d & Hd & Hs).
        exists d. split; [destruct Hd as [<-|[<-|[]]]; cbn; auto|exact Hs].
    + apply (ring_false (whole_stored _ _ _ _ WH) g nf ef HB U UOK (whole_closed _ _ _ _ _ ef WH)).
      assert (w = 1 /\ h = 1) as [-> ->] by nia.
      intros l1 a t l2 Eq _.
      assert (HI : In (a, t) (pairs (G := rect_code_geometry (directed_axes hexq_axes)
        (hex_offset_q_dir b 1 1) 1 1) ef)) by (rewrite Eq; apply in_or_app; right; left; auto).
      unfold pairs in HI. apply in_map_iff in HI. destruct HI as (r & _ & Hr).
      destruct (ref_ends ef r Hr) as [Hs (d & Hd)].
      destruct (er_source r) as [x y].
      change (In (x, y) (board 1 1 (fun x y => (x, y)))) in Hs. apply in_rect in Hs.
      rewrite (q_geo_step (directed_axes hexq_axes) (hex_offset_q_dir b 1 1) b 1 1 F eq_refl) in Hd by lia.
      assert (x = 0 /\ y = 0) as [-> ->] by lia.
      destruct C as [C|[C|C]]; try lia.
      * destruct b, d; vm_compute in Hd; discriminate.
      * destruct b, d; vm_compute in Hd; discriminate.
  - apply (whole_ring _ _ _ _ _ _ _ (wh_offset_q_loop b w h F) g nf ef HB T U UOK HN).
    apply refs_many. intros [x y] Hc.
    change (In (x, y) (board w h (fun x y => (x, y)))) in Hc. apply in_rect in Hc.
    exists BN. split; [left; auto|].
    change (match offset_move_q_lew w h (q_flag b) Release (x, y) QN with
      | Ok t => t | Fail _ => None end <> None).
    rewrite offset_q_loop_off; auto; cbn [fst snd]; try lia.
    unfold q_loop_step. cbn [q_loop_vec]. unfold one_sided_loop_step, vadd. cbn [fst snd].
    repeat match goal with |- context [if ?c then _ else _] => destruct c eqn:? end; try lia;
      discriminate.
  - eapply whole_ring; eauto; [apply wh_enclosed, en_axial_r_loop; auto|].
    apply (axial_many _ _ _ hexr_axes (hex_axial_r_lew k b w h) k (co_r b) w h ef r_vec (co_r_range b)).
    + intros c d Hc. apply r_loop_move; auto.
    + exists AE. cbn. auto.
  - eapply whole_ring; eauto; [apply wh_enclosed, en_axial_r_dir_loop; auto|].
    apply (axial_many _ _ _ (directed_axes hexr_axes) (hex_axial_r_dir_lew k b w h) k (co_r b) w h ef r_vec (co_r_range b)).
    + intros c d Hc. apply r_loop_move; auto.
    + exists RE. cbn. auto.
  - eapply whole_ring; eauto; [apply wh_enclosed, en_axial_q_loop; auto|].
    apply (axial_many _ _ _ hexq_axes (hex_axial_q_lew k b w h) k (co_q b) w h ef q_vec' (co_q_range b)).
    + intros c d Hc. apply q_loop_move; auto.
    + exists BNE. cbn. auto.
  - eapply whole_ring; eauto; [apply wh_enclosed, en_axial_q_dir_loop; auto|].
    apply (axial_many _ _ _ (directed_axes hexq_axes) (hex_axial_q_dir_lew k b w h) k (co_q b) w h ef q_vec' (co_q_range b)).
    + intros c d Hc. apply q_loop_move; auto.
    + exists QNE. cbn. auto.
  - assert (CL : forall r, In r (spec_edge_references (double_code_geometry w h) ef) ->
      In (er_target r) (geo_nodes (double_code_geometry w h))).
    { intros r Hr. assert (Hi : In (er_source r, er_target r) (pairs (G := double_code_geometry w h) ef))
        by (apply in_map_iff; eauto).
      destruct (er_source r) as [x y], (er_target r) as [x' y'].
      apply (double_edges F) in Hi. destruct Hi as (Ha & Hi). apply in_double in Ha.
      change (In (x', y') (board w h double_cell)). apply in_double. lia. }
    destruct ((2 <? w) && (1 <? h)) eqn:EC.
    + apply (ring_true (st_double w h F) g nf ef HB U UOK CL).
      apply (triangle _ (0, 0) (2, 0) (1, 1)); try (intros [=]; lia);
        apply (double_edges F); rewrite in_double; lia.
    + apply (ring_false (st_double w h F) g nf ef HB U UOK CL).
      destruct (Z.lt_ge_cases 1 h) as [Hh|Hh].
      * (* at most two doubled columns: up and down *)
        apply (levels_forest _ snd (fun e => Z.min (snd (fst e)) (snd (snd e)))).
        -- apply pairs_keys.
           ++ apply (c05 (st_double w h F) g nf ef HB).
           ++ cbn [geo_ax double_code_geometry code_geometry hexr_axes ag_axes].
              repeat constructor; cbn [In]; intuition congruence.
           ++ intros [x y] a t [x' y'] a' t' Hc Hc' Hs Hs' Hk.
              change (In (x, y) (board w h double_cell)) in Hc.
              change (In (x', y') (board w h double_cell)) in Hc'. apply in_double in Hc, Hc'.
              change (match double_move_r w h Release (x, y) (ag_fwd hexr_axes a) with
                | Ok o => o | Fail _ => None end = Some t) in Hs.
              change (match double_move_r w h Release (x', y') (ag_fwd hexr_axes a') with
                | Ok o => o | Fail _ => None end = Some t') in Hs'.
              rewrite double_step in Hs by (auto; lia). rewrite double_step in Hs' by (auto; lia).
              destruct a, a'; cbn [ag_fwd hexr_axes] in Hs, Hs';
                match type of Hs with context [if ?c then _ else _] => destruct c eqn:?; [|discriminate] end;
                match type of Hs' with context [if ?c then _ else _] => destruct c eqn:?; [|discriminate] end;
                injection Hs as <-; injection Hs' as <-; cbn [fst snd] in Hk; try lia;
                (split; [apply pair_eq; lia|reflexivity]).
        -- intros [x y] [x' y'] Hi. apply (double_edges F) in Hi. cbn [fst snd]. rewrite in_double in Hi. lia.
        -- intros [x y] [x' y'] k Hi. apply (double_edges F) in Hi. cbn [fst snd]. rewrite in_double in Hi. lia.
      * (* one row *)
        apply (levels_forest _ (fun c => fst c / 2) (fun e => fst (fst e) / 2)).
        -- apply pairs_keys.
           ++ apply (c05 (st_double w h F) g nf ef HB).
           ++ cbn [geo_ax double_code_geometry code_geometry hexr_axes ag_axes].
              repeat constructor; cbn [In]; intuition congruence.
           ++ intros [x y] a t [x' y'] a' t' Hc Hc' Hs Hs' Hk.
              change (In (x, y) (board w h double_cell)) in Hc.
              change (In (x', y') (board w h double_cell)) in Hc'. apply in_double in Hc, Hc'.
              change (match double_move_r w h Release (x, y) (ag_fwd hexr_axes a) with
                | Ok o => o | Fail _ => None end = Some t) in Hs.
              change (match double_move_r w h Release (x', y') (ag_fwd hexr_axes a') with
                | Ok o => o | Fail _ => None end = Some t') in Hs'.
              rewrite double_step in Hs by (auto; lia). rewrite double_step in Hs' by (auto; lia).
              destruct a, a'; cbn [ag_fwd hexr_axes] in Hs, Hs';
                match type of Hs with context [if ?c then _ else _] => destruct c eqn:?; [|discriminate] end;
                match type of Hs' with context [if ?c then _ else _] => destruct c eqn:?; [|discriminate] end;
                injection Hs as <-; injection Hs' as <-; cbn [fst snd] in Hk; try lia;
                (split; [apply pair_eq; lia|reflexivity]).
        -- intros [x y] [x' y'] Hi. apply (double_edges F) in Hi. cbn [fst snd]. rewrite in_double in Hi. lia.
        -- intros [x y] [x' y'] k Hi. apply (double_edges F) in Hi. cbn [fst snd]. rewrite in_double in Hi. lia.
Qed.

Lemma board_empty : forall h cell, board 0 h cell = [].
Proof. reflexivity. Qed.

Lemma ringed_every : forall A D (s : Shape Cell A D) G, Enclosed s G ->
  geo_nodes G = [] \/ (exists b, Cyclic s G b) \/ (exists b, Ringed s G b).
Proof.
  intros A D s G EN. destruct EN as [A D s G SUP|b w h F C|b w h F C|b w h F C|k b w h F Hf C
    |k b w h F Hf C|k b w h F Hf C|k b w h F Hf C|w h F C].
  - right. left. apply cyclic_every. auto.
  - right. right. eexists. apply ri_offset_q; auto.
  - right. right. eexists. apply ri_offset_q_dir; auto.
  - right. right. eexists. apply ri_offset_q_loop; auto.
  - destruct C as [->|C]; [left; apply board_empty|].
    right. right. eexists. apply ri_axial_r_loop; auto.
  - destruct C as [->|C]; [left; apply board_empty|].
    right. right. eexists. apply ri_axial_r_dir_loop; auto.
  - destruct C as [->|C]; [left; apply board_empty|].
    right. right. eexists. apply ri_axial_q_loop; auto.
  - destruct C as [->|C]; [left; apply board_empty|].
    right. right. eexists. apply ri_axial_q_dir_loop; auto.
  - right. right. eexists. apply ri_double; auto.
Qed.
