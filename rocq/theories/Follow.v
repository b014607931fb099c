(** * Follow: walking along [edges]. *)

From Verif Require Import Machine Store Axes Shapes Lattice Spec Spec2 Spec10 Spec11 Basics
  AxisProofs GeoProofs ShapeProofs StoreProofs LoopProofs OffboardProofs OffboardMore
  GraphProofs RepProofs Main1 QuirkProofs UnsafeProofs AnySearchMain.
From Coq Require Import ZifyBool ZifyNat.
Ltac Zify.zify_post_hook ::= Z.div_mod_to_equations.

Lemma enclosed_traversable : forall A D (s : Shape Cell A D) G, Enclosed s G -> Traversable s G.
Proof.
  intros A D s G H. destruct H.
  - apply tr_supported; auto.
  - apply tr_offset_q; auto.
  - apply tr_offset_q_dir; auto.
  - apply tr_offset_q_loop; auto.
  - apply tr_axial_r_loop; auto.
  - apply tr_axial_r_dir_loop; auto.
  - apply tr_axial_q_loop; auto.
  - apply tr_axial_q_dir_loop; auto.
  - apply tr_double; auto.
Qed.

Lemma leaky_traversable : forall A D (s : Shape Cell A D) G, Leaky s G -> Traversable s G.
Proof.
  intros A D s G H. destruct H.
  - apply tr_offset_q_dir; auto.
  - apply tr_axial_r_loop; auto.
  - apply tr_axial_r_dir_loop; auto.
  - apply tr_axial_q_loop; auto.
  - apply tr_axial_q_dir_loop; auto.
Qed.

Lemma every_shape : forall A D (s : Shape Cell A D) G, Stored s G ->
  Enclosed s G \/ Leaky s G \/ Untraversable s G.
Proof.
  intros A D s G H. destruct H as [A D s G SUP|b w h F|b w h F|b w h F|k b w h F Hf|k b w h F Hf
    |k b w h F Hf|k b w h F Hf|w h F].
  - left. apply en_supported; auto.
  - pose proof (fits_bounds _ _ F) as B.
    assert (C : (w <= 1 \/ h = 0 \/ h mod 2 = co_q b) \/ (2 <= w /\ 1 <= h /\ h mod 2 <> co_q b)) by lia.
    destruct C as [C|(C1 & C2 & C3)]; [left; apply en_offset_q|right; right; apply un_offset_q]; auto.
  - pose proof (fits_bounds _ _ F) as B.
    assert (C : (w <= 1 \/ h = 0 \/ h mod 2 = co_q b) \/ (2 <= w /\ 1 <= h /\ h mod 2 <> co_q b)) by lia.
    destruct C as [C|(C1 & C2 & C3)]; [left; apply en_offset_q_dir|right; left; apply lk_offset_q_dir]; auto.
  - pose proof (fits_bounds _ _ F) as B.
    assert (C : (w <= 1 \/ h = 0 \/ (b = EvenQ /\ h mod 2 = 1)) \/
                (2 <= w /\ 1 <= h /\ (b = OddQ \/ h mod 2 = 0))).
    { destruct b; [|assert (h mod 2 = 0 \/ h mod 2 = 1) as [?|?] by lia];
        (assert (w <= 1 \/ 2 <= w) as [?|?] by lia); (assert (h = 0 \/ 1 <= h) as [?|?] by lia); auto 6. }
    destruct C as [C|(C1 & C2 & C3)]; [left; apply en_offset_q_loop|right; right; apply un_offset_q_loop]; auto.
  - pose proof (fits_bounds _ _ F) as B.
    assert (C : (w = 0 \/ h + co_r b <= 2) \/ (1 <= w /\ 3 <= h + co_r b)) by lia.
    destruct C as [C|(C1 & C2)]; [left; apply en_axial_r_loop|right; left; apply lk_axial_r_loop]; auto.
  - pose proof (fits_bounds _ _ F) as B.
    assert (C : (w = 0 \/ h + co_r b <= 2) \/ (1 <= w /\ 3 <= h + co_r b)) by lia.
    destruct C as [C|(C1 & C2)]; [left; apply en_axial_r_dir_loop|right; left; apply lk_axial_r_dir_loop]; auto.
  - pose proof (fits_bounds _ _ F) as B.
    assert (C : (w = 0 \/ h + co_q b <= 2) \/ (1 <= w /\ 3 <= h + co_q b)) by lia.
    destruct C as [C|(C1 & C2)]; [left; apply en_axial_q_loop|right; left; apply lk_axial_q_loop]; auto.
  - pose proof (fits_bounds _ _ F) as B.
    assert (C : (w = 0 \/ h + co_q b <= 2) \/ (1 <= w /\ 3 <= h + co_q b)) by lia.
    destruct C as [C|(C1 & C2)]; [left; apply en_axial_q_dir_loop|right; left; apply lk_axial_q_dir_loop]; auto.
  - assert (C : w * h <= 1 \/ 2 <= w * h) by lia.
    destruct C; [left; apply en_double|right; right; apply un_double]; auto.
Qed.

(** ** Enclosed boards *)

Lemma q_step_in : forall b w h c d t, fits w h -> w <= 1 \/ h = 0 \/ h mod 2 = co_q b ->
  In c (board w h (fun x y => (x, y))) -> offset_move_q w h (q_flag b) Release c d = Ok (Some t) ->
  In t (board w h (fun x y => (x, y))).
Proof.
  intros b w h [x y] d t F HC Hin H. apply in_rect in Hin. pose proof (fits_bounds _ _ F) as B.
  rewrite IMAX1_val in B. rewrite offset_q_off in H; auto; cbn [fst snd]; try lia.
  injection H as H. unfold q_step, one_sided_step, vadd in H. cbn [fst snd] in H.
  assert (HL : lifted b (x, y) = (y mod 2 =? q_flag b)).
  { unfold lifted. cbn [snd]. destruct b; cbn [q_flag]; rewrite ?Zmod_odd, ?Zmod_even;
      [rewrite <- Z.negb_odd|]; destruct (Z.odd y); reflexivity. }
  assert (HP : q_flag b = co_q b /\ (co_q b = 0 \/ co_q b = 1)) by (destruct b; cbn; lia).
  destruct d; unfold q_vec in H; try rewrite HL in H; destruct (y mod 2 =? q_flag b) eqn:Ep;
    cbn [fst snd] in H;
    match type of H with hd_opt (if ?g then _ else _) = _ => destruct g eqn:Eg end;
    cbn [hd_opt] in H; try discriminate; injection H as <-; apply in_rect; lia.
Qed.

Lemma q_loop_step_in : forall b w h c d t, fits w h ->
  In c (board w h (fun x y => (x, y))) ->
  offset_move_q_lew w h (q_flag b) Release c d = Ok (Some t) ->
  In t (board w h (fun x y => (x, y))).
Proof.
  intros b w h [x y] d t F Hin H. apply in_rect in Hin. pose proof (fits_bounds _ _ F) as B.
  rewrite IMAX1_val in B. rewrite offset_q_loop_off in H; auto; cbn [fst snd]; try lia.
  injection H as H. unfold q_loop_step in H. unfold q_loop_vec in H.
  destruct d, (lifted b (x, y)); unfold one_sided_step, one_sided_loop_step, vadd in H;
    cbn [fst snd] in H;
    repeat match type of H with context [if ?g then _ else _] => destruct g eqn:? end;
    cbn [hd_opt] in H; try discriminate; injection H as <-; apply in_rect; lia.
Qed.

Lemma double_step_in : forall w h c d t, fits w h -> w * h <= 1 ->
  In c (board w h double_cell) -> double_move_r w h Release c d = Ok (Some t) -> False.
Proof.
  intros w h [x y] d t F HC Hin H. apply in_double in Hin. pose proof (fits_bounds _ _ F) as B.
  rewrite IMAX1_val in B. assert (w = 1 /\ h = 1) as [-> ->] by nia.
  rewrite double_off in H; auto; cbn [fst snd]; try lia.
  injection H as H. unfold one_sided_step, vadd in H. cbn [fst snd] in H.
  destruct d; cbn [hexr_vec fst snd] in H;
    match type of H with context [if ?g then _ else _] => destruct g eqn:? end;
    cbn [hd_opt] in H; try discriminate; lia.
Qed.

Lemma axial_loop_step_in : forall co w h t t', 0 <= co <= 1 -> w = 0 \/ h + co <= 2 ->
  1 <= w -> -1 <= fst t + (snd t + co) / 2 <= w ->
  axial_loop_step co w h t = Some t' -> In t' (board w h (axial_cell co)).
Proof.
  intros co w h [r q] t' Hco HC Hw Hx H. unfold axial_loop_step in H. cbn [fst snd] in *.
  repeat match goal with H : context [if ?x then _ else _] |- _ => destruct x eqn:? end;
    try discriminate; injection H as <-; apply in_axial; unfold half_row; lia.
Qed.

Lemma axial_r_loop_in : forall k b w h m c d t, fits w h -> axial_fits k (co_r b) w h ->
  w = 0 \/ h + co_r b <= 2 -> In c (board w h (axial_cell (co_r b))) ->
  sh_move_coord (hex_axial_r_lew k b w h) m c d = Ok (Some t) ->
  In t (board w h (axial_cell (co_r b))).
Proof.
  intros k b w h m [r q] d t F Hf HC Hin H. pose proof (co_r_range b) as Hco.
  rewrite (axial_loop_r_exact k b w h m (r, q) d (r_target (r, q) d) F Hf Hin) in H.
  - injection H as H. apply in_axial in Hin. unfold half_row in Hin.
    eapply axial_loop_step_in in H; eauto; [lia|].
    destruct d; cbn [r_target hexr_vec fst snd] in *; lia.
  - destruct d; unfold r_target, axial_r_pos, vadd; cbn [hexr_vec fst snd]; apply pair_eq; lia.
Qed.
Lemma axial_q_loop_in : forall k b w h m c d t, fits w h -> axial_fits k (co_q b) w h ->
  w = 0 \/ h + co_q b <= 2 -> In c (board w h (axial_cell (co_q b))) ->
  sh_move_coord (hex_axial_q_lew k b w h) m c d = Ok (Some t) ->
  In t (board w h (axial_cell (co_q b))).
Proof.
  intros k b w h m [r q] d t F Hf HC Hin H. pose proof (co_q_range b) as Hco.
  rewrite (axial_loop_q_exact k b w h m (r, q) d (q_target (r, q) d) F Hf Hin) in H.
  - injection H as H. apply in_axial in Hin. unfold half_row in Hin.
    eapply axial_loop_step_in in H; eauto; [lia|].
    destruct d; cbn [q_target hexq_vec fst snd] in *; lia.
  - destruct d; unfold q_target, axial_q_pos, vadd; cbn [hexq_vec fst snd]; apply pair_eq; lia.
Qed.

Lemma enclosed_in : forall A D (s : Shape Cell A D) G c d t, Enclosed s G ->
  In c (geo_nodes G) -> geo_step G c d = Some t -> In t (geo_nodes G).
Proof.
  intros A D s G c d t EN Hc H.
  assert (HO : forall (o : outcome (option Cell)),
    match o with Ok t => t | Fail _ => None end = Some t -> o = Ok (Some t)).
  { intros [x|] Ex; [f_equal; auto|discriminate]. }
  destruct EN as [A D s G SUP|b w h F C|b w h F C|b w h F C|k b w h F Hf C|k b w h F Hf C
    |k b w h F Hf C|k b w h F Hf C|w h F C].
  - eapply (rg_in (supported_regular _ _ _ _ SUP)); eauto.
  - apply HO in H. exact (q_step_in b w h c d t F C Hc H).
  - apply HO in H. exact (q_step_in b w h c d t F C Hc H).
  - apply HO in H. exact (q_loop_step_in b w h c d t F Hc H).
  - apply HO in H. exact (axial_r_loop_in k b w h Release c d t F Hf C Hc H).
  - apply HO in H. exact (axial_r_loop_in k b w h Release c d t F Hf C Hc H).
  - apply HO in H. exact (axial_q_loop_in k b w h Release c d t F Hf C Hc H).
  - apply HO in H. exact (axial_q_loop_in k b w h Release c d t F Hf C Hc H).
  - apply HO in H. destruct (double_step_in w h c d t F C Hc H).
Qed.

Lemma consumed_prefix : forall St X (next : St -> outcome (option X * St)) it l l' it',
  Drains next it l -> Consumed next it l' it' -> forall x, In x l' -> In x l.
Proof.
  intros St X next it l l' it' (a & b & HC & HN & HF) HC'. clear HF. revert l a b HC HN.
  induction HC' as [|it y it1 l' it2 H HC' IH]; intros l a b HC HN x Hx; [destruct Hx|].
  inversion HC as [|? z it3 lr ? H3 HC3]; subst; [congruence|].
  rewrite H in H3. injection H3 as <- <-. destruct Hx as [<-|Hx]; [left; auto|right].
  eapply IH; eauto.
Qed.

Lemma leak_r : forall k b w h A (s : Shape Cell A AxisDR) ax,
  fits w h -> axial_fits k (co_r b) w h -> 1 <= w -> 3 <= h + co_r b ->
  sh_move_coord s = sh_move_coord (hex_axial_r_lew k b w h) ->
  let G : Geometry A AxisDR := axial_code_geometry ax s k (co_r b) w h in
  exists c t, In c (geo_nodes G) /\ geo_step G c RE = Some t /\ ~ In t (geo_nodes G).
Proof.
  intros k b w h A s ax F Hf Hw Hh Es G. pose proof (co_r_range b) as Hco.
  set (c := axial_cell (co_r b) (w - 1) (h - 1)).
  assert (Hc : In c (board w h (axial_cell (co_r b)))).
  { apply in_board. exists (w - 1), (h - 1). split; [lia|]. split; [lia|reflexivity]. }
  exists c, (fst c + 1, snd c). split; [exact Hc|]. split.
  - unfold G, axial_code_geometry, code_geometry. cbn [geo_step]. rewrite Es.
    rewrite (axial_loop_r_exact k b w h Release c RE (fst c + 1, snd c) F Hf Hc).
    + unfold axial_loop_step, c, axial_cell. cbn [fst snd].
      repeat match goal with |- context [if ?x then _ else _] => destruct x eqn:? end;
        try reflexivity; lia.
    + unfold axial_r_pos, vadd. cbn [hexr_vec fst snd]. apply pair_eq; lia.
  - cbn [geo_nodes G axial_code_geometry code_geometry]. intros H. apply in_axial in H.
    unfold half_row, c, axial_cell in H. cbn [fst snd] in H. lia.
Qed.
Lemma leak_q : forall k b w h A (s : Shape Cell A AxisDQ) ax,
  fits w h -> axial_fits k (co_q b) w h -> 1 <= w -> 3 <= h + co_q b ->
  sh_move_coord s = sh_move_coord (hex_axial_q_lew k b w h) ->
  let G : Geometry A AxisDQ := axial_code_geometry ax s k (co_q b) w h in
  exists c t, In c (geo_nodes G) /\ geo_step G c QNE = Some t /\ ~ In t (geo_nodes G).
Proof.
  intros k b w h A s ax F Hf Hw Hh Es G. pose proof (co_q_range b) as Hco.
  set (c := axial_cell (co_q b) (w - 1) (h - 1)).
  assert (Hc : In c (board w h (axial_cell (co_q b)))).
  { apply in_board. exists (w - 1), (h - 1). split; [lia|]. split; [lia|reflexivity]. }
  exists c, (fst c + 1, snd c). split; [exact Hc|]. split.
  - unfold G, axial_code_geometry, code_geometry. cbn [geo_step]. rewrite Es.
    rewrite (axial_loop_q_exact k b w h Release c QNE (fst c + 1, snd c) F Hf Hc).
    + unfold axial_loop_step, c, axial_cell. cbn [fst snd].
      repeat match goal with |- context [if ?x then _ else _] => destruct x eqn:? end;
        try reflexivity; lia.
    + unfold axial_q_pos, vadd. cbn [hexq_vec fst snd]. apply pair_eq; lia.
  - cbn [geo_nodes G axial_code_geometry code_geometry]. intros H. apply in_axial in H.
    unfold half_row, c, axial_cell in H. cbn [fst snd] in H. lia.
Qed.

Lemma leaky_step : forall A D (s : Shape Cell A D) G, Leaky s G ->
  exists c a t, In c (geo_nodes G) /\ In a (ag_axes (geo_ax G)) /\
    geo_step G c (ag_fwd (geo_ax G) a) = Some t /\ ~ In t (geo_nodes G).
Proof.
  intros A D s G LK. destruct LK as [b w h F C1 C2 C3|k b w h F Hf C1 C2|k b w h F Hf C1 C2
    |k b w h F Hf C1 C2|k b w h F Hf C1 C2].
  - exists (0, h - 1), QNE, (1, h). split; [apply in_rect; lia|]. split; [cbn; tauto|]. split.
    + pose proof (proj1 (c31_off b w h Release F C1 C2 C3)) as E0.
      change (geo_step _ (0, h - 1) _) with
        (match sh_move_coord (hex_offset_q b w h) Release (0, h - 1) QNE with
         | Ok t => t | Fail _ => None end). rewrite E0. reflexivity.
    + intros H. apply in_rect in H. lia.
  - edestruct (leak_r k b w h _ (hex_axial_r_lew k b w h) hexr_axes) as (c & t & H1 & H2 & H3); auto.
    exists c, AE, t. split; [exact H1|]. split; [cbn; tauto|]. split; [exact H2|exact H3].
  - edestruct (leak_r k b w h _ (hex_axial_r_dir_lew k b w h) (directed_axes hexr_axes)) as (c & t & H1 & H2 & H3); auto.
    exists c, RE, t. split; [exact H1|]. split; [cbn; tauto|]. split; [exact H2|exact H3].
  - edestruct (leak_q k b w h _ (hex_axial_q_lew k b w h) hexq_axes) as (c & t & H1 & H2 & H3); auto.
    exists c, BNE, t. split; [exact H1|]. split; [cbn; tauto|]. split; [exact H2|exact H3].
  - edestruct (leak_q k b w h _ (hex_axial_q_dir_lew k b w h) (directed_axes hexq_axes)) as (c & t & H1 & H2 & H3); auto.
    exists c, QNE, t. split; [exact H1|]. split; [cbn; tauto|]. split; [exact H2|exact H3].
Qed.

Section Safe.
  Context {A D N E : Type} {m : mode} {s : Shape Cell A D} {G : Geometry A D}
    (g : LatticeGraph Cell A D N E) (nf : Cell -> N) (ef : Cell -> A -> E)
    (HB : Built m s G g nf ef).
  Notation followed := (Followed (edges m g) (edges_next m g) (@er_target Cell E D)).

  Lemma c99_safe : Enclosed s G -> forall start c, In start (geo_nodes G) -> followed start c ->
    In c (geo_nodes G) /\
    exists it l, edges m g c = Ok it /\ Drains (edges_next m g) it l.
  Proof using HB.
    intros EN start c Hs HF. pose proof (enclosed_traversable _ _ _ _ EN) as TR.
    pose proof (traversable_stored _ _ _ _ TR) as STO.
    assert (HI : In c (geo_nodes G)).
    { induction HF as [|b it l it' r HF IH He HC Hr]; auto.
      destruct (c12 TR g nf ef b HB IH) as (it2 & E2 & D2). rewrite He in E2. injection E2 as <-.
      pose proof (consumed_prefix _ _ _ _ _ _ _ D2 HC r Hr) as Hr2.
      destruct (c12_targets TR g nf ef b it _ _ HB IH He D2
        (proj1 (c09 STO g nf ef b Outgoing HB IH))) as [HT _].
      apply (in_map er_target) in Hr2. rewrite HT in Hr2.
      apply (in_spec_neighbors STO) in Hr2. destruct Hr2 as (d & Hd).
      eapply enclosed_in; eauto. }
    split; auto. destruct (c12 TR g nf ef c HB HI) as (it & E1 & E2). eauto.
  Qed.

  Lemma off_step_fault : Traversable s G -> forall c d t, In c (geo_nodes G) ->
    geo_step G c d = Some t -> ~ In t (geo_nodes G) ->
    followed c t /\ edges m g t = Fail (match m with Debug => FPanic | Release => FUB end).
  Proof using HB.
    intros TR c d t Hc Hd Hn. pose proof (traversable_stored _ _ _ _ TR) as STO.
    split; [|apply (c22_fault STO g nf ef t Outgoing HB); auto; eapply step_locatable; eauto].
    destruct (c12 TR g nf ef c HB Hc) as (it & E1 & D1).
    destruct (c12_targets TR g nf ef c it _ _ HB Hc E1 D1
      (proj1 (c09 STO g nf ef c Outgoing HB Hc))) as [HT _].
    assert (Ht : In t (spec_neighbors G c)) by (apply (in_spec_neighbors STO); eauto).
    rewrite <- HT in Ht. apply in_map_iff in Ht. destruct Ht as (r & <- & Hr).
    destruct D1 as (it1 & it2 & HC & _). eapply followed_step; eauto. constructor.
  Qed.

  Lemma c99_fault : Leaky s G \/ Untraversable s G -> exists start c f,
    In start (geo_nodes G) /\ followed start c /\
    (m = Release -> f = FUB) /\ (f = FUB \/ f = FPanic) /\
    (edges m g c = Fail f \/
     exists it l it', edges m g c = Ok it /\ Consumed (edges_next m g) it l it' /\
       edges_next m g it' = Fail f).
  Proof using HB.
    intros [LK|UN].
    - pose proof (leaky_step _ _ _ _ LK) as HS.
      destruct HS as (c & a & t & Hc & _ & Hd & Hn).
      destruct (off_step_fault (leaky_traversable _ _ _ _ LK) c _ t Hc Hd Hn) as [H1 H2].
      exists c, t. eexists. split; auto. split; auto. split; [|split; [|left; exact H2]].
      + intros ->. reflexivity.
      + destruct m; auto.
    - destruct (untraversable_ub _ _ _ _ _ _ _ UN g nf ef HB) as (c & it & l & it' & H1 & H2).
      exists c, c, FUB. split; auto. split; [constructor|]. split; auto. split; auto.
      right. eauto.
  Qed.
End Safe.
