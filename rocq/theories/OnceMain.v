(** * OnceMain: how often a node is listed among the neighbours of another (C131, C132). *)

From Verif Require Import Machine Store Axes Shapes Lattice SquareGraph Traverse Astar Spec SpecSquare
  Spec4 Spec11 Spec19 Spec21 Basics AxisProofs GeoProofs ShapeProofs StoreProofs GraphProofs RepProofs
  EdgeProofs VisitProofs Main1 TraverseProofs SquareProofs SquareMain SimplePaths Spec26 SimplePathsProofs
  SimplePathsMain Spec27.
From Coq Require Import ZifyBool ZifyNat.

(** ** Boards *)

Section Placed.
  Context {A D : Type} {G : Geometry A D} {pos : Cell -> Vec} {period : Vec} (PL : placed G pos period).

  Lemma step_same : forall a d d' c, geo_step G a d = Some c -> geo_step G a d' = Some c ->
    same_place period (ag_vec (geo_ax G) d) (ag_vec (geo_ax G) d') = true.
  Proof using PL.
    intros a d d' c H H'. apply (geo_step_place PL) in H. apply (geo_step_place PL) in H'.
    assert (H0 : same_place period (vadd (pos a) (ag_vec (geo_ax G) d)) (vadd (pos a) (ag_vec (geo_ax G) d'))
      = true) by (eapply same_place_trans; [exact H|apply same_place_sym; exact H']).
    apply (same_place_shift _ _ _ (vneg (pos a))) in H0.
    destruct (pos a) as [p1 p2], (ag_vec (geo_ax G) d) as [v1 v2], (ag_vec (geo_ax G) d') as [w1 w2].
    unfold vadd, vneg in H0. cbn [fst snd] in H0.
    replace (p1 + v1 + - p1) with v1 in H0 by lia. replace (p2 + v2 + - p2) with v2 in H0 by lia.
    replace (p1 + w1 + - p1) with w1 in H0 by lia. replace (p2 + w2 + - p2) with w2 in H0 by lia.
    exact H0.
  Qed.

  Lemma step_self : forall a d, geo_step G a d = Some a ->
    same_place period (ag_vec (geo_ax G) d) (0, 0) = true.
  Proof using PL.
    intros a d H. apply (geo_step_place PL) in H.
    apply (same_place_shift _ _ _ (vneg (pos a))) in H.
    destruct (pos a) as [p1 p2], (ag_vec (geo_ax G) d) as [v1 v2].
    unfold vadd, vneg in H. cbn [fst snd] in H.
    replace (p1 + v1 + - p1) with v1 in H by lia. replace (p2 + v2 + - p2) with v2 in H by lia.
    replace (p1 + - p1) with 0 in H by lia. replace (p2 + - p2) with 0 in H by lia. exact H.
  Qed.

  Lemma spec_nodup : forall a, NoDup (ag_dirs (geo_ax G)) ->
    (forall d d', same_place period (ag_vec (geo_ax G) d) (ag_vec (geo_ax G) d') = true -> d = d') ->
    NoDup (spec_neighbors G a).
  Proof using PL.
    intros a HD HV. unfold spec_neighbors. induction HD as [|d l Hd HD IH]; [constructor|].
    cbn [flat_map]. destruct (geo_step G a d) as [c|] eqn:E; [|exact IH].
    cbn [app]. constructor; [|exact IH]. intros Hc. apply in_flat_map in Hc. destruct Hc as (d' & Hd' & Hc).
    destruct (geo_step G a d') as [c'|] eqn:E'; [|destruct Hc]. destruct Hc as [->|[]].
    pose proof (HV _ _ (step_same _ _ _ _ E E')). subst. auto.
  Qed.

  Lemma spec_other : forall a,
    (forall d, same_place period (ag_vec (geo_ax G) d) (0, 0) = false) -> ~ In a (spec_neighbors G a).
  Proof using PL.
    intros a HV H. unfold spec_neighbors in H. apply in_flat_map in H. destruct H as (d & _ & H).
    destruct (geo_step G a d) as [c|] eqn:E; [|destruct H]. destruct H as [->|[]].
    apply step_self in E. rewrite HV in E. discriminate.
  Qed.

  Lemma spec_twice : forall a d d' b, NoDup (ag_dirs (geo_ax G)) -> In d (ag_dirs (geo_ax G)) ->
    In d' (ag_dirs (geo_ax G)) -> d <> d' -> geo_step G a d = Some b -> geo_step G a d' = Some b ->
    ~ NoDup (spec_neighbors G a).
  Proof using.
    clear PL. intros a d d' b HD H1 H2 Hne S1 S2. unfold spec_neighbors.
    induction (ag_dirs (geo_ax G)) as [|x l IH]; [destruct H1|].
    inversion HD; subst. cbn [flat_map].
    assert (HI : forall y, In y l -> geo_step G a y = Some b ->
      In b (flat_map (fun d => match geo_step G a d with Some c' => [c'] | None => [] end) l)).
    { intros y Hy Ey. apply in_flat_map. exists y. rewrite Ey. split; [exact Hy|left; reflexivity]. }
    destruct H1 as [->|H1], H2 as [->|H2].
    - congruence.
    - rewrite S1. cbn [app]. intros HN. inversion HN; subst. eauto.
    - rewrite S2. cbn [app]. intros HN. inversion HN; subst. eauto.
    - intros HN. apply IH; auto. destruct (geo_step G a x); [inversion HN; auto|auto].
  Qed.
End Placed.

Lemma dirs_nodup : forall A D m (s : Shape Cell A D) G cell, Refines m s G cell ->
  NoDup (ag_dirs (geo_ax G)).
Proof.
  intros A D m s G cell RF. apply NoDup_nth_error. intros i j Hi E.
  destruct (nth_error (ag_dirs (geo_ax G)) i) as [d|] eqn:Ed.
  - pose proof (ao_dnth_inv _ _ _ (rf_axis _ _ _ _ RF) _ _ Ed).
    pose proof (ao_dnth_inv _ _ _ (rf_axis _ _ _ _ RF) _ _ (eq_sym E)). congruence.
  - apply nth_error_None in Ed. lia.
Qed.

Lemma unlooped_placed : forall A D (G : Geometry A D), Unlooped G -> exists pos, placed G pos (0, 0).
Proof.
  intros A D G H. destruct H; eexists;
    [apply square_inj|apply offset_r_inj|apply axial_r_inj|apply axial_q_inj].
Qed.

Lemma unlooped_ok : forall A D m (s : Shape Cell A D) G cell, Refines m s G cell -> Unlooped G ->
  forall a, NoDup (spec_neighbors G a) /\ ~ In a (spec_neighbors G a).
Proof.
  intros A D m s G cell RF U a. destruct (unlooped_placed _ _ _ U) as (pos & PL). split.
  - apply (spec_nodup PL); [eapply dirs_nodup; eauto|]. intros d d' H. apply same_place_zero in H.
    apply (ao_vec_inj _ _ _ (rf_axis _ _ _ _ RF)). auto.
  - apply (spec_other PL). intros d. destruct (same_place _ _ _) eqn:E; [|reflexivity].
    apply same_place_zero in E. destruct (ao_vec_nonzero _ _ _ (rf_axis _ _ _ _ RF) d). auto.
Qed.

(** Looped boards: everything follows from the vectors and from the two nodes of a row. *)
Definition loop_facts {A D} (G : Geometry A D) (w : Z) : Prop :=
  forall a, In a (geo_nodes G) ->
    (In a (spec_neighbors G a) <-> w = 1) /\ (NoDup (spec_neighbors G a) <-> 3 <= w).

Lemma loop_ok : forall A D (G : Geometry A D) pos period w h cell d d',
  placed G pos period -> geo_nodes G = board w h cell -> NoDup (ag_dirs (geo_ax G)) ->
  (forall d d', 3 <= w ->
    same_place period (ag_vec (geo_ax G) d) (ag_vec (geo_ax G) d') = true -> d = d') ->
  (forall d, 2 <= w -> same_place period (ag_vec (geo_ax G) d) (0, 0) = false) ->
  In d (ag_dirs (geo_ax G)) -> In d' (ag_dirs (geo_ax G)) -> d <> d' ->
  (forall x y, 0 <= x < w -> w <= 2 ->
    same_place period (vadd (pos (cell x y)) (ag_vec (geo_ax G) d)) (pos (cell (w - 1 - x) y)) = true /\
    same_place period (vadd (pos (cell x y)) (ag_vec (geo_ax G) d')) (pos (cell (w - 1 - x) y)) = true) ->
  loop_facts G w.
Proof.
  intros A D G pos period w h cell d d' PL Hn HD H3 H2 Hd Hd' Hne Hs a Ha.
  rewrite Hn in Ha. apply in_board in Ha. destruct Ha as (x & y & Hx & Hy & ->).
  assert (HB : w <= 2 -> geo_step G (cell x y) d = Some (cell (w - 1 - x) y) /\
    geo_step G (cell x y) d' = Some (cell (w - 1 - x) y)).
  { intros Hw. destruct (Hs x y Hx Hw) as [E1 E2].
    assert (In (cell (w - 1 - x) y) (geo_nodes G)).
    { rewrite Hn. apply in_board. exists (w - 1 - x), y. repeat split; lia. }
    split; apply (geo_step_some PL); auto. }
  split; split.
  - intros H. destruct (Z_le_gt_dec 2 w) as [Hw|Hw]; [|lia].
    exfalso. exact (spec_other PL _ (fun d => H2 d Hw) H).
  - intros ->. destruct HB as [E _]; [lia|]. unfold spec_neighbors. apply in_flat_map. exists d.
    rewrite E. replace (1 - 1 - x) with x by lia. split; [auto|left; reflexivity].
  - intros H. destruct (Z_le_gt_dec 3 w) as [Hw|Hw]; [lia|]. exfalso. destruct HB as [E1 E2]; [lia|].
    exact (spec_twice _ _ _ _ HD Hd Hd' Hne E1 E2 H).
  - intros Hw. apply (spec_nodup PL); auto.
Qed.

Lemma far : forall p a b, same_place p a b = true ->
  a = b \/ exists k, k <> 0 /\ fst a - fst b = k * fst p /\ snd a - snd b = k * snd p.
Proof.
  intros p [a1 a2] [b1 b2] H. apply same_place_iff in H. cbn [fst snd] in *. destruct H as [[_ H]|(_ & k & H1 & H2)]; [auto|].
  destruct (Z.eq_dec k 0) as [->|Hk]; [left; apply pair_eq; lia|right; exists k; lia].
Qed.

Ltac vec_far := intros;
  match goal with H : same_place _ _ _ = true |- _ =>
    apply far in H; destruct H as [H|(j & Hj & Hj1 & Hj2)]; cbn -[Z.mul Z.sub] in *; [discriminate|];
    assert (Hk : 1 <= j \/ j <= -1) by lia; destruct Hk as [Hk|Hk]; nia end.

Ltac place_at k := apply same_place_iff; right; split; [cbn; lia|exists k];
  unfold vadd, axial_r_pos, axial_q_pos, axial_cell, offset_r_pos;
  try (match goal with b : HexR |- _ => destruct b end);
  cbn -[Z.mul Z.modulo Z.add Z.sub Z.opp Z.div]; split; lia.

Ltac two_cols w := intros x y Hx Hw;
  assert (Hc : w = 1 /\ x = 0 \/ w = 2 /\ x = 0 \/ w = 2 /\ x = 1) by lia;
  destruct Hc as [[-> ->]|[[-> ->]|[-> ->]]];
  [split; [place_at 1|place_at (-1)]|split; [place_at 0|place_at (-1)]|split; [place_at 1|place_at 0]].

Ltac loop_case w h d0 d0' inj :=
  eapply (loop_ok _ _ _ _ _ w h _ d0 d0'); [apply inj|reflexivity
  | repeat constructor; cbn; intuition discriminate
  | intros d d' Hw E; destruct d, d'; try reflexivity; exfalso; vec_far
  | intros d Hw; destruct (same_place _ _ _) eqn:E; [exfalso|reflexivity]; destruct d; vec_far
  | cbn; auto 10
  | cbn; auto 10
  | discriminate
  | two_cols w ].

Lemma looped_ok : forall A D (G : Geometry A D) w, LoopsAfter G w -> loop_facts G w.
Proof.
  intros A D G w H. destruct H.
  - loop_case w h RE RW offset_r_loop_inj.
  - loop_case w h RE RW axial_r_loop_inj.
  - loop_case w h RE RW axial_r_loop_inj.
  - loop_case w h QNE QSW axial_q_loop_inj.
  - loop_case w h QNE QSW axial_q_loop_inj.
Qed.

Lemma supported_kind : forall A D (s : Shape Cell A D) G, Supported s G ->
  Unlooped G \/ LoopsAfter G (sh_horizontal s).
Proof. intros A D s G H. destruct H; (left; constructor) || (right; cbn; constructor). Qed.

Section Lat.
  Context {A D N E : Type} {m : mode} {s : Shape Cell A D} {G : Geometry A D}
    (SUP : Supported s G) (g : LatticeGraph Cell A D N E) (nf : Cell -> N) (ef : Cell -> A -> E)
    (HB : Built m s G g nf ef).

  Lemma drained : forall a l, In a (geo_nodes G) -> Drains (neighbors_next m g a) (neighbors g a) l ->
    l = spec_neighbors G a.
  Proof using SUP HB.
    intros a l Ha H. exact (Drains_det _ _ _ _ H
      (proj1 (c09 (st_supported _ _ _ _ SUP) g nf ef a Outgoing HB Ha))).
  Qed.

  Lemma c131_once : Unlooped G -> forall a l, In a (geo_nodes G) ->
    Drains (neighbors_next m g a) (neighbors g a) l -> NoDup l /\ ~ In a l.
  Proof using SUP HB.
    intros U a l Ha H. rewrite (drained a l Ha H). pose proof (st_supported _ _ _ _ SUP) as STO.
    refine_store m STO. eapply unlooped_ok; eauto.
  Qed.

  Lemma c131_looped : forall w, LoopsAfter G w -> forall a l, In a (geo_nodes G) ->
    Drains (neighbors_next m g a) (neighbors g a) l -> (In a l <-> w = 1) /\ (NoDup l <-> 3 <= w).
  Proof using SUP HB.
    intros w W a l Ha H. rewrite (drained a l Ha H). exact (looped_ok _ _ _ _ W a Ha).
  Qed.

  Lemma wide_nodup : Wide G -> forall a, In a (geo_nodes G) -> NoDup (spec_neighbors G a).
  Proof using SUP.
    intros [U|(w & W & Hw)] a Ha.
    - pose proof (st_supported _ _ _ _ SUP) as STO. refine_store Debug STO. eapply unlooped_ok; eauto.
    - apply (looped_ok _ _ _ _ W a Ha). auto.
  Qed.

  Lemma wide_step : Wide G -> forall a b d d', In a (geo_nodes G) -> geo_step G a d = Some b ->
    geo_step G a d' = Some b -> d = d'.
  Proof using SUP.
    intros W a b d d' Ha H H'. pose proof (wide_nodup W a Ha) as HN.
    pose proof (st_supported _ _ _ _ SUP) as STO. refine_store Debug STO. pose proof (rf_axis _ _ _ _ RF) as AO.
    pose proof (ao_dnth _ _ _ AO d) as Ed. pose proof (ao_dnth _ _ _ AO d') as Ed'.
    destruct (Nat.eq_dec (dir_to_index (ax_dir (sh_axis s)) d) (dir_to_index (ax_dir (sh_axis s)) d')) as [Q|Q].
    { congruence. }
    exfalso. refine (spec_twice a d d' b (dirs_nodup _ _ _ _ _ _ RF) _ _ _ H H' HN).
    - eapply nth_error_In; eauto.
    - eapply nth_error_In; eauto.
    - congruence.
  Qed.

  Lemma c131_edges : Wide G -> forall a it l, In a (geo_nodes G) -> edges m g a = Ok it ->
    Drains (edges_next m g) it l -> NoDup (map er_target l).
  Proof using SUP HB.
    intros W a it l Ha He Hl.
    destruct (c12 (m := m) (tr_supported _ _ _ _ SUP) g nf ef a HB Ha) as (it' & E1 & E2).
    rewrite He in E1. injection E1 as <-. rewrite (Drains_det _ _ _ _ Hl E2).
    rewrite (spec_edges_targets (tr_supported _ _ _ _ SUP)) by auto. apply wide_nodup; auto.
  Qed.

  Lemma c131_one_edge : Wide G -> forall l r r', Drains (edge_references_next m g) (edge_references g) l ->
    In r l -> In r' l ->
    er_source r = er_source r' /\ er_target r = er_target r' \/
    ag_directed (geo_ax G) = false /\ er_source r = er_target r' /\ er_target r = er_source r' ->
    r = r'.
  Proof using SUP HB.
    intros W l r r' Hl Hr Hr' Hends. pose proof (st_supported _ _ _ _ SUP) as STO.
    rewrite (Drains_det _ _ _ _ Hl (c15_drains STO g nf ef HB)) in Hr, Hr'.
    apply (in_spec_edge_references STO) in Hr, Hr'.
    destruct Hr as (c & x & t & Hc & Hs & ->). destruct Hr' as (c' & x' & t' & Hc' & Hs' & ->).
    cbn [er_source er_target] in Hends. refine_shape m SUP. pose proof (rf_axis _ _ _ _ RF) as AO.
    destruct Hends as [[-> ->]|(HD & E1 & E2)].
    - pose proof (wide_step W _ _ _ _ Hc' Hs Hs') as Q. apply (ao_fwd_inj _ _ _ AO) in Q. congruence.
    - exfalso. subst t t'. destruct (ao_opp _ _ _ AO (ag_fwd (geo_ax G) x')) as (d & Ho).
      pose proof (rg_sym RG _ _ _ _ Hc' Hs' Ho) as Hb.
      pose proof (wide_step W _ _ _ _ Hc Hs Hb) as Q. subst d.
      exact (ao_undirected_opp _ _ _ AO HD _ _ Ho).
  Qed.

  Lemma c131_paths : Wide G -> forall a b least most l, In a (geo_nodes G) -> a <> b -> 0 <= least < USIZE - 1 ->
    match most with Some k => 0 <= k < USIZE - 1 | None => True end ->
    AllSimplePaths veqb m (node_count m g) (fun c => neighbors_directed g c Outgoing)
      (neighbors_next m g) b a least most l -> NoDup l.
  Proof using SUP HB.
    intros W a b least most l Ha Hne HL HM H.
    refine (proj2 (c129_members (sound_crate _ _ _ SUP) g nf ef HB (spec_neighbors G) _ a b least most l Ha Hne HL HM H) _).
    - intros c Hc. apply (c09 (st_supported _ _ _ _ SUP) g nf ef c Outgoing HB Hc).
    - apply wide_nodup. auto.
  Qed.
End Lat.

Lemma c131_kind : forall A D (s : Shape Cell A D) G, Supported s G ->
  Unlooped G \/ LoopsAfter G (sh_horizontal s).
Proof. exact supported_kind. Qed.

(** ** SquareGraph *)

  Lemma wrapped_back : forall loop n x, 0 <= x < n ->
    wrapped loop n (x + -1) = if x =? 0 then (if loop then Some (n - 1) else None) else Some (x - 1).
  Proof.
    intros loop n x Hx. unfold wrapped. destruct (Z.eqb_spec x 0) as [->|Hne].
    - cbn. destruct loop; auto. f_equal. symmetry. apply Z.mod_unique with (-1); lia.
    - replace ((0 <=? x + -1) && (x + -1 <? n)) with true by lia. f_equal.
  Qed.
  Lemma wrapped_on : forall loop n x, 0 <= x < n ->
    wrapped loop n (x + 1) = if x =? n - 1 then (if loop then Some 0 else None) else Some (x + 1).
  Proof.
    intros loop n x Hx. unfold wrapped. destruct (Z.eqb_spec x (n - 1)) as [->|Hne].
    - replace ((0 <=? n - 1 + 1) && (n - 1 + 1 <? n)) with false by lia. destruct loop; auto. f_equal.
      replace (n - 1 + 1) with n by lia. apply Z.mod_same. lia.
    - replace ((0 <=? x + 1) && (x + 1 <? n)) with true by lia. f_equal.
  Qed.
  Lemma wrapped_stay : forall loop n x, 0 <= x < n -> wrapped loop n (x + 0) = Some x.
  Proof.
    intros loop n x Hx. unfold wrapped. replace ((0 <=? x + 0) && (x + 0 <? n)) with true by lia. f_equal. lia.
  Qed.

Lemma node_eq : forall a b c d, @eq NodeIndex (a, b) (c, d) <-> a = c /\ b = d.
Proof. intros. split; [intros [= -> ->]; auto|intros [-> ->]; auto]. Qed.

Lemma sq_once : forall S h v n, on_board h v n ->
  (In n (sq_neighbours S h v n) <-> loops_h S = true /\ h = 1 \/ loops_v S = true /\ v = 1) /\
  (NoDup (sq_neighbours S h v n) <-> (loops_h S = true -> 3 <= h) /\ (loops_v S = true -> 3 <= v)).
Proof.
  intros S h v [x y] [Hx Hy]. cbn [fst snd] in *.
  assert (NN : NoDup (@nil NodeIndex) <-> True) by (split; auto using NoDup_nil). unfold sq_neighbours, sq_directions, sq_neighbour.
  cbn [flat_map sq_dir_vec sq_axis_vec vneg fst snd]. change (- (1)) with (-1). change (- 0) with 0.
  rewrite !wrapped_back, !wrapped_on, !wrapped_stay by auto.
  destruct (loops_h S), (loops_v S), (Z.eqb_spec x 0), (Z.eqb_spec x (h - 1)), (Z.eqb_spec y 0),
    (Z.eqb_spec y (v - 1)); cbn [app]; rewrite ?NoDup_cons_iff; cbn [In]; rewrite ?node_eq;
    try rewrite NN; lia.
Qed.

Section Sq.
  Context {N E : Type} {ix : IxType} {S : LoopShape} {m : mode} {h v : Z}
    (SZ : sq_size S h v) (IX : sq_index_fits ix h v)
    (g : SquareGraph N E ix S) (nf : _) (ef : _) (B : SqBuilt m h v g nf ef).

  Lemma c132_once : forall a l, on_board h v a ->
    Drains (sg_neighbors_next (ix := ix) (S := S) m) (sg_neighbors g a) l ->
    (In a l <-> loops_h S = true /\ h = 1 \/ loops_v S = true /\ v = 1) /\
    (NoDup l <-> (loops_h S = true -> 3 <= h) /\ (loops_v S = true -> 3 <= v)).
  Proof using SZ IX B.
    intros a l Ha H. rewrite (Drains_det _ _ _ _ H (proj1 (c44 SZ IX B a Ha))). apply sq_once. auto.
  Qed.

  Lemma c132_paths : (loops_h S = true -> 3 <= h) -> (loops_v S = true -> 3 <= v) ->
    forall a b least most l, on_board h v a -> a <> b -> 0 <= least < USIZE - 1 ->
    match most with Some k => 0 <= k < USIZE - 1 | None => True end ->
    AllSimplePaths veqb m (Ok (sg_node_count g)) (sg_neighbors g)
      (fun _ => sg_neighbors_next (ix := ix) (S := S) m) b a least most l -> NoDup l.
  Proof using SZ IX B.
    intros W1 W2 a b least most l Ha Hne HL HM H.
    refine (proj2 (c130_members SZ IX g nf ef B (sq_neighbours S h v) _ a b least most l Ha Hne HL HM H) _).
    - intros c Hc. apply (c44 SZ IX B c Hc).
    - intros c Hc. apply sq_once; auto.
  Qed.

  Lemma c132_one_edge : (loops_h S = true -> 3 <= h) -> (loops_v S = true -> 3 <= v) ->
    forall l r r' e e' w w' n n' t t',
    Drains (sg_edge_references_next m g) (sg_edge_references g) l -> In r l -> In r' l ->
    sq_view ix S m r = Ok (e, w, n, t) -> sq_view ix S m r' = Ok (e', w', n', t') ->
    n = n' /\ t = t' \/ n = t' /\ t = n' -> e = e'.
  Proof using SZ IX B.
    intros W1 W2 l r r' e e' w w' n n' t t' Hl Hr Hr' V V' Hends.
    destruct (c46 SZ IX B) as (l' & D' & ML). rewrite <- (Drains_det _ _ _ _ Hl D') in ML. clear l' D'.
    assert (HI : forall r x, In r l -> sq_view ix S m r = Ok x -> In x (sq_all_edges S h v ef)).
    { intros q x Hq Hx. apply (in_map (sq_view ix S m)) in Hq. rewrite ML, Hx in Hq. apply in_map_iff in Hq.
      destruct Hq as (y & Q & Hy). injection Q as <-. exact Hy. }
    pose proof (HI _ _ Hr V) as H1. pose proof (HI _ _ Hr' V') as H2.
    apply (c46_each SZ B) in H1, H2. destruct H1 as ([Q1 _] & _ & -> & S1). destruct H2 as ([Q2 _] & _ & -> & S2).
    clear - Q1 Q2 S1 S2 W1 W2 Hends. destruct e as [[x y] a], e' as [[x' y'] a'].
    destruct Q1 as [X1 Y1], Q2 as [X2 Y2]. cbn [fst snd] in *. unfold sq_neighbour in S1, S2.
    cbn [sq_dir_vec fst snd] in S1, S2.
    destruct a, a'; cbn [sq_axis_vec fst snd] in S1, S2; rewrite wrapped_on, wrapped_stay in S1, S2 by auto;
      destruct (loops_h S), (loops_v S);
      repeat match type of S1 with context [?u =? ?z] => destruct (Z.eqb_spec u z) end;
      repeat match type of S2 with context [?u =? ?z] => destruct (Z.eqb_spec u z) end;
      try discriminate; injection S1 as <-; injection S2 as <-; rewrite !node_eq in Hends;
      first [exfalso; lia|f_equal; apply node_eq; lia].
  Qed.
End Sq.
