(** * AnySearchMain: searches on every shape of the crate. *)

From Verif Require Import Machine Store Axes Shapes Lattice Traverse Clients Spec Spec2 Spec4
  Spec10 Spec11 Basics AxisProofs GeoProofs ShapeProofs StoreProofs LoopProofs OffboardProofs
  OffboardMore GraphProofs RepProofs VisitProofs Main1 TraverseProofs AnySearch SearchProofs
  ClientsProofs.
From Coq Require Import ZifyBool ZifyNat Sorted Permutation.
Ltac Zify.zify_post_hook ::= Z.div_mod_to_equations.

(** ** Where a move may lead *)

Lemma hd_one_sided : forall w h c v t, hd_opt (one_sided_step w h c v) = Some t ->
  t = vadd c v /\ 0 <= fst t /\ 0 <= snd t.
Proof.
  intros w h c v t. unfold one_sided_step.
  repeat match goal with |- context [if ?x then _ else _] => destruct x eqn:? end;
    cbn [hd_opt]; intros H; try discriminate; injection H as <-; split; [reflexivity|]; cbn [fst snd] in *; lia.
Qed.
Lemma hd_one_sided_loop : forall w h c t t', 1 <= w -> fst t <= fst c + 1 ->
  hd_opt (one_sided_loop_step w h c t) = Some t' ->
  0 <= fst t' <= Z.max (fst c + 1) w /\ snd t' = snd t /\ 0 <= snd t.
Proof.
  intros w h c t t' Hw H2. unfold one_sided_loop_step.
  repeat match goal with |- context [if ?x then _ else _] => destruct x eqn:? end;
    cbn [hd_opt]; intros H; try discriminate; injection H as <-; cbn [fst snd]; lia.
Qed.

Lemma q_vec_small : forall b c d, -1 <= fst (q_vec b c d) <= 1 /\ -1 <= snd (q_vec b c d) <= 1.
Proof. intros b c d. unfold q_vec. destruct d, (lifted b c); cbn; lia. Qed.
Lemma q_loop_vec_small : forall b c d,
  -1 <= fst (fst (q_loop_vec b c d)) <= 1 /\ -1 <= snd (fst (q_loop_vec b c d)) <= 1.
Proof. intros b c d. unfold q_loop_vec. destruct d, (lifted b c); cbn; lia. Qed.

Lemma q_step_coord : forall b w h c d t, fits w h -> In c (board w h (fun x y => (x, y))) ->
  offset_move_q w h (q_flag b) Release c d = Ok (Some t) ->
  0 <= fst t < 2 ^ 64 /\ 0 <= snd t < 2 ^ 64.
Proof.
  intros b w h [x y] d t F Hin H. apply in_rect in Hin. pose proof (fits_bounds _ _ F) as B.
  rewrite IMAX1_val in B. rewrite offset_q_off in H; auto; cbn [fst snd]; try lia.
  injection H as H. apply hd_one_sided in H. destruct H as (-> & H1 & H2).
  pose proof (q_vec_small b (x, y) d). unfold vadd in *. cbn [fst snd] in *. lia.
Qed.
Lemma q_loop_step_coord : forall b w h c d t, fits w h -> In c (board w h (fun x y => (x, y))) ->
  offset_move_q_lew w h (q_flag b) Release c d = Ok (Some t) ->
  0 <= fst t < 2 ^ 64 /\ 0 <= snd t < 2 ^ 64.
Proof.
  intros b w h [x y] d t F Hin H. apply in_rect in Hin. pose proof (fits_bounds _ _ F) as B.
  rewrite IMAX1_val in B. rewrite offset_q_loop_off in H; auto; cbn [fst snd]; try lia.
  injection H as H. unfold q_loop_step in H. pose proof (q_loop_vec_small b (x, y) d) as Hv.
  destruct (q_loop_vec b (x, y) d) as [v over]. cbn [fst snd] in Hv. destruct over.
  - apply hd_one_sided_loop in H; unfold vadd in *; cbn [fst snd] in *; lia.
  - apply hd_one_sided in H. destruct H as (-> & H1 & H2). unfold vadd in *. cbn [fst snd] in *. lia.
Qed.
Lemma double_step_coord : forall w h c d t, fits w h -> In c (board w h double_cell) ->
  double_move_r w h Release c d = Ok (Some t) ->
  0 <= fst t < 2 ^ 64 /\ 0 <= snd t < 2 ^ 64 /\ fst t mod 2 = snd t mod 2.
Proof.
  intros w h [x y] d t F Hin H. apply in_double in Hin. pose proof (fits_bounds _ _ F) as B.
  rewrite IMAX1_val in B. rewrite double_off in H; auto; cbn [fst snd]; try lia.
  injection H as H. apply hd_one_sided in H. destruct H as (-> & H1 & H2).
  destruct d; cbn [hexr_vec vadd fst snd] in *; lia.
Qed.

Lemma axial_loop_step_coord : forall k co w h t t', 0 <= co <= 1 -> fits w h ->
  axial_fits k co w h -> 0 <= w -> -1 <= fst t + (snd t + co) / 2 <= w ->
  axial_loop_step co w h t = Some t' ->
  axial_coord k t' /\ ~ (0 <= snd t' < h /\ 2 ^ 63 <= fst t' + (snd t' + co) / 2).
Proof.
  intros k co w h [r q] t' Hco F Hf Hw Hx H. pose proof (fits_bounds _ _ F) as B.
  rewrite IMAX1_val in B. unfold axial_loop_step in H. cbn [fst snd] in *.
  repeat match goal with H : context [if ?x then _ else _] |- _ => destruct x eqn:? end;
    try discriminate; injection H as <-; cbn [fst snd]; unfold axial_coord, axial_fits in *;
    destruct k; cbn [fst snd] in *;
    change (2 ^ 63) with 9223372036854775808 in *; lia.
Qed.

Definition r_target (c : Cell) (d : AxisDR) : Cell :=
  (fst c + (fst (hexr_vec d) - snd (hexr_vec d)) / 2, snd c + snd (hexr_vec d)).
Definition q_target (c : Cell) (d : AxisDQ) : Cell :=
  (fst c + fst (hexq_vec d), snd c + (snd (hexq_vec d) - fst (hexq_vec d)) / 2).

Lemma axial_r_loop_coord : forall k b w h m c d t, fits w h -> axial_fits k (co_r b) w h ->
  In c (board w h (axial_cell (co_r b))) ->
  sh_move_coord (hex_axial_r_lew k b w h) m c d = Ok (Some t) ->
  axial_coord k t /\ ~ (0 <= snd t < h /\ 2 ^ 63 <= fst t + (snd t + co_r b) / 2).
Proof.
  intros k b w h m [r q] d t F Hf Hin H. pose proof (co_r_range b) as Hco.
  rewrite (axial_loop_r_exact k b w h m (r, q) d (r_target (r, q) d) F Hf Hin) in H.
  - injection H as H. apply in_axial in Hin. unfold half_row in Hin.
    eapply axial_loop_step_coord in H; eauto; [lia|].
    destruct d; cbn [r_target hexr_vec fst snd] in *; lia.
  - destruct d; unfold r_target, axial_r_pos, vadd; cbn [hexr_vec fst snd]; apply pair_eq; lia.
Qed.
Lemma axial_q_loop_coord : forall k b w h m c d t, fits w h -> axial_fits k (co_q b) w h ->
  In c (board w h (axial_cell (co_q b))) ->
  sh_move_coord (hex_axial_q_lew k b w h) m c d = Ok (Some t) ->
  axial_coord k t /\ ~ (0 <= snd t < h /\ 2 ^ 63 <= fst t + (snd t + co_q b) / 2).
Proof.
  intros k b w h m [r q] d t F Hf Hin H. pose proof (co_q_range b) as Hco.
  rewrite (axial_loop_q_exact k b w h m (r, q) d (q_target (r, q) d) F Hf Hin) in H.
  - injection H as H. apply in_axial in Hin. unfold half_row in Hin.
    eapply axial_loop_step_coord in H; eauto; [lia|].
    destruct d; cbn [q_target hexq_vec fst snd] in *; lia.
  - destruct d; unfold q_target, axial_q_pos, vadd; cbn [hexq_vec fst snd]; apply pair_eq; lia.
Qed.

Lemma step_locatable : forall A D (s : Shape Cell A D) G m c d t, Stored s G ->
  In c (geo_nodes G) -> geo_step G c d = Some t -> locatable m G t.
Proof.
  intros A D s G m c d t STO Hc H.
  assert (HO : forall (o : outcome (option Cell)),
    match o with Ok t => t | Fail _ => None end = Some t -> o = Ok (Some t)).
  { intros [x|] Ex; [f_equal; auto|discriminate]. }
  destruct STO as [A D s G SUP|b w h F|b w h F|b w h F|k b w h F Hf|k b w h F Hf|k b w h F Hf
    |k b w h F Hf|w h F].
  - refine_shape m SUP. destruct (rf_coord_ok _ _ _ _ RF t) as [H1 H2].
    + eapply (rg_in (supported_regular _ _ _ _ SUP)); eauto.
    + split; auto.
  - apply HO in H. split; [|intros _ []]. exact (q_step_coord b w h c d t F Hc H).
  - apply HO in H. split; [|intros _ []]. exact (q_step_coord b w h c d t F Hc H).
  - apply HO in H. split; [|intros _ []]. exact (q_loop_step_coord b w h c d t F Hc H).
  - apply HO in H. destruct (axial_r_loop_coord k b w h Release c d t F Hf Hc H). split; auto.
  - apply HO in H. destruct (axial_r_loop_coord k b w h Release c d t F Hf Hc H). split; auto.
  - apply HO in H. destruct (axial_q_loop_coord k b w h Release c d t F Hf Hc H). split; auto.
  - apply HO in H. destruct (axial_q_loop_coord k b w h Release c d t F Hf Hc H). split; auto.
  - apply HO in H. split; [|intros _ []]. exact (double_step_coord w h c d t F Hc H).
Qed.

Lemma degree_any : forall A D (s : Shape Cell A D) G c, Stored s G ->
  Z.of_nat (length (spec_neighbors G c)) + 1 < 2 ^ 72.
Proof.
  intros A D s G c STO. assert (H : (length (ag_dirs (geo_ax G)) <= 8)%nat).
  { destruct STO as [A D s G SUP|b w h F|b w h F|b w h F|k b w h F Hf|k b w h F Hf|k b w h F Hf
      |k b w h F Hf|w h F]; try (cbn; lia). eapply dirs_few; eauto. }
  enough (H2 : (length (spec_neighbors G c) <= 8)%nat) by lia.
  etransitivity; [|exact H]. unfold spec_neighbors. clear.
  induction (ag_dirs (geo_ax G)) as [|d l IH]; cbn [flat_map length]; [lia|].
  rewrite app_length. destruct (geo_step G c d); cbn [length]; lia.
Qed.

(** ** The searches *)

Section Search.
  Context {A D N E : Type} {m : mode} {s : Shape Cell A D} {G : Geometry A D}
    (STO : Stored s G) (g : LatticeGraph Cell A D N E) (nf : Cell -> N) (ef : Cell -> A -> E)
    (HB : Built m s G g nf ef).
  Notation reached := (Reached (neighbors g) (neighbors_next m g) (geo_nodes G)).

  Lemma any_nb : forall c, In c (geo_nodes G) ->
    Drains (neighbors_next m g c) (neighbors g c) (spec_neighbors G c).
  Proof using STO HB. intros c Hc. exact (proj1 (c09 STO g nf ef c Outgoing HB Hc)). Qed.

  Lemma any_off : forall c x, In c (geo_nodes G) -> In x (spec_neighbors G c) ->
    ~ In x (geo_nodes G) -> forall vm,
    vm_visit m (g_s g) vm x = Ok (false, vm) /\ vm_is_visited m (g_s g) vm x = Ok false.
  Proof using STO HB.
    intros c x Hc Hx Hn vm. refine_store m STO. pose proof (RepProofs.built_rep RF _ _ _ HB) as [Hs _].
    apply (in_spec_neighbors STO) in Hx. destruct Hx as (d & Hd).
    destruct (step_locatable _ _ _ _ m _ _ _ STO Hc Hd) as [H1 H2].
    pose proof (rf_off_board _ _ _ _ RF x H1 Hn H2) as Ho.
    unfold vm_visit, vm_is_visited. rewrite Hs, Ho. auto.
  Qed.

  Lemma c98_bfs : forall start, In start (geo_nodes G) ->
    exists it l, bfs_new (vm_visit m (g_s g)) (visit_map g) start = Ok it /\
      Drains (bfs_next (neighbors g) (neighbors_next m g) (vm_visit m (g_s g))) it l /\
      hd_error l = Some start /\ NoDup l /\
      (forall c, In c l <-> exists n, reached start n c) /\
      forall l1 a l2 b l3 n, l = l1 ++ a :: l2 ++ b :: l3 -> reached start n b ->
        exists k, (k <= n)%nat /\ reached start k a.
  Proof using STO HB.
    intros start Hs. refine_store m STO. pose proof (RepProofs.built_rep RF _ _ _ HB) as [Hgs _].
    apply (bfs_any (neighbors g) (neighbors_next m g) (vm_visit m (g_s g))
      (vm_is_visited m (g_s g)) cell_dec (geo_nodes G) (spec_neighbors G)
      (VMrep (s := s) (G := G) (cell := cell)) any_nb (fun c _ => degree_any _ _ _ _ c STO) any_off
      (vr_visit g nf ef HB cell RF) (vr_visited g nf ef HB cell RF) (vr_ext cell) start Hs).
    apply (visit_map_rep RF g Hgs).
  Qed.

  Lemma c98_dfs : forall start, In start (geo_nodes G) ->
    exists l, Drains (dfs_next (neighbors g) (neighbors_next m g) (vm_visit m (g_s g))
        (vm_is_visited m (g_s g))) (dfs_new (visit_map g) start) l /\
      hd_error l = Some start /\ NoDup l /\
      (forall c, In c l <-> exists n, reached start n c) /\
      forall l1 c l2, l = l1 ++ c :: l2 -> l1 <> [] ->
        exists p ln, In p l1 /\ Drains (neighbors_next m g p) (neighbors g p) ln /\ In c ln.
  Proof using STO HB.
    intros start Hs. refine_store m STO. pose proof (RepProofs.built_rep RF _ _ _ HB) as [Hgs _].
    apply (dfs_any (neighbors g) (neighbors_next m g) (vm_visit m (g_s g))
      (vm_is_visited m (g_s g)) cell_dec (geo_nodes G) (spec_neighbors G)
      (VMrep (s := s) (G := G) (cell := cell)) any_nb (fun c _ => degree_any _ _ _ _ c STO) any_off
      (vr_visit g nf ef HB cell RF) (vr_visited g nf ef HB cell RF) (vr_ext cell) start Hs).
    apply (visit_map_rep RF g Hgs).
  Qed.

  Lemma reached_in : forall start n c, In start (geo_nodes G) -> reached start n c ->
    In c (geo_nodes G).
  Proof. intros start n c Hs H. inversion H; subst; auto. Qed.

  Lemma nodes_few : Z.of_nat (length (geo_nodes G)) + 1 < 2 ^ 72.
  Proof using STO m.
    clear g nf ef HB. refine_store m STO. rewrite (rf_nodes _ _ _ _ RF).
    pose proof (fits_bounds _ _ (rf_fits _ _ _ _ RF)) as B. rewrite IMAX1_val in B.
    rewrite board_length by lia. change (2 ^ 72) with 4722366482869645213696. lia.
  Qed.

  Lemma c98_path : forall from to, In from (geo_nodes G) ->
    forall eqb : Cell -> Cell -> bool, (forall a b, eqb a b = true <-> a = b) ->
    exists b, has_path_connecting (neighbors g) (neighbors_next m g) (vm_visit m (g_s g))
        (vm_is_visited m (g_s g)) eqb (visit_map g) from to = Ok b /\
      (b = true <-> exists n, reached from n to).
  Proof using STO HB.
    intros from to Hf eqb Heq. destruct (c98_dfs from Hf) as (l & L1 & _ & L2 & L3 & _).
    assert (HL : (length l <= length (geo_nodes G))%nat).
    { apply NoDup_incl_length; auto. intros c Hc. apply L3 in Hc. destruct Hc as (n & Hc).
      eapply reached_in; eauto. }
    pose proof nodes_few as HN.
    rewrite (path_ok (neighbors g) (neighbors_next m g) (vm_visit m (g_s g))
      (vm_is_visited m (g_s g)) cell_dec from eqb Heq (visit_map g) l L1) by lia.
    eexists. split; [reflexivity|]. rewrite <- L3.
    destruct (in_dec cell_dec to l) as [H|H]; split; auto; discriminate.
  Qed.
End Search.
