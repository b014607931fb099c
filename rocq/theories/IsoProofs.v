(** * IsoProofs: shapes compared with each other; connectivity. *)

From Verif Require Import Machine Store Axes Shapes Lattice Spec Spec2 Basics AxisProofs
  GeoProofs ShapeProofs StoreProofs GraphProofs RepProofs IterProofs EdgeProofs Main1 Main2.
From Coq Require Import ZifyBool ZifyNat.
Ltac Zify.zify_post_hook ::= Z.div_mod_to_equations.

(** ** Offset and axial coordinates *)

Definition to_axial (co : Z) (c : Cell) : Cell := axial_cell co (fst c) (snd c).

(** Positions agree up to a constant shift. *)
Lemma offset_axial_pos : forall b c,
  offset_r_pos b c = vadd (axial_r_pos (to_axial (co_r b) c)) (co_r b, 0).
Proof.
  intros b [x y]. unfold offset_r_pos, to_axial, axial_r_pos, axial_cell, vadd. cbn [fst snd].
  destruct b; cbn [co_r]; apply pair_eq; lia.
Qed.

Lemma same_place_shift_iff : forall p a b v,
  same_place p (vadd a v) (vadd b v) = same_place p a b.
Proof.
  intros p a b v. destruct (same_place p a b) eqn:E.
  - apply same_place_shift. exact E.
  - destruct (same_place p (vadd a v) (vadd b v)) eqn:E'; auto.
    apply (same_place_shift _ _ _ (vneg v)) in E'. rewrite !vadd_neg in E'. congruence.
Qed.

Lemma vadd_comm3 : forall a b c, vadd (vadd a b) c = vadd (vadd a c) b.
Proof. intros [] [] []. unfold vadd. cbn [fst snd]. apply pair_eq; lia. Qed.

Lemma find_map : forall A B (f : A -> B) p (l : list A),
  find p (map f l) = option_map f (find (fun x => p (f x)) l).
Proof. induction l; simpl; auto. destruct (p (f a)); auto. Qed.

Lemma find_ext : forall A p q (l : list A), (forall x, p x = q x) -> find p l = find q l.
Proof. induction l; simpl; intros; auto. rewrite H, IHl by auto. reflexivity. Qed.

Lemma board_map : forall w h f cell,
  board w h (fun x y => f (cell x y)) = map f (board w h cell).
Proof.
  intros. unfold board. rewrite flat_map_concat_map, flat_map_concat_map, concat_map, map_map.
  f_equal. apply map_ext. intros. rewrite map_map. reflexivity.
Qed.

Lemma axial_board : forall co w h,
  board w h (axial_cell co) = map (to_axial co) (board w h (fun x y => (x, y))).
Proof. intros. rewrite <- board_map. reflexivity. Qed.

Lemma place_step_axial : forall A (ax : AxisGeo A AxisDR) b w h p c d,
  place_step ax (board w h (axial_cell (co_r b))) axial_r_pos p (to_axial (co_r b) c) d =
  option_map (to_axial (co_r b))
    (place_step ax (board w h (fun x y => (x, y))) (offset_r_pos b) p c d).
Proof.
  intros. unfold place_step. rewrite axial_board, find_map. f_equal. apply find_ext.
  intros c'. rewrite !offset_axial_pos. rewrite <- (same_place_shift_iff p _ _ (co_r b, 0)).
  rewrite vadd_comm3. reflexivity.
Qed.

(** What the proofs below need of a pair of shapes. *)
Record Iso {A} (s : Shape Cell A AxisDR) (G : Geometry A AxisDR)
  (s' : Shape Cell A AxisDR) (G' : Geometry A AxisDR) (co : Z) : Prop := {
  iso_ax : geo_ax G' = geo_ax G;
  iso_w : sh_horizontal s' = sh_horizontal s;
  iso_h : sh_vertical s' = sh_vertical s;
  iso_sup : Supported s G;
  iso_sup' : Supported s' G';
  iso_nodes : geo_nodes G = board (sh_horizontal s) (sh_vertical s) (fun x y => (x, y));
  iso_nodes' : geo_nodes G' = map (to_axial co) (geo_nodes G);
  iso_offset : forall m x y, 0 <= x < sh_horizontal s -> 0 <= y < sh_vertical s ->
    sh_offset_to_coordinate s' m (x, y) = Ok (to_axial co (x, y)) /\
    sh_to_offset s' m (to_axial co (x, y)) = Ok (Some (x, y));
  iso_step : forall c d, geo_step G' (to_axial co c) d
    = option_map (to_axial co) (geo_step G c d)
}.

Lemma axial_refines_cell : forall A D (s : Shape Cell A D) G m cell co,
  Refines m s G cell ->
  geo_nodes G = board (sh_horizontal s) (sh_vertical s) (axial_cell co) ->
  forall x y, 0 <= x < sh_horizontal s -> 0 <= y < sh_vertical s ->
  sh_offset_to_coordinate s m (x, y) = Ok (axial_cell co x y) /\
  sh_to_offset s m (axial_cell co x y) = Ok (Some (x, y)).
Proof.
  intros A D s G m cell co RF Hn x y Hx Hy.
  assert (Hc : cell x y = axial_cell co x y).
  { pose proof (rf_nodes _ _ _ _ RF) as H. rewrite Hn in H.
    pose proof (board_nth _ _ cell x y Hx Hy) as H1. rewrite <- H in H1.
    rewrite board_nth in H1 by auto. congruence. }
  rewrite <- Hc. split; [apply (rf_coord _ _ _ _ RF) | apply (rf_offset _ _ _ _ RF)]; auto.
Qed.

Lemma same_hex_iso : forall A (s : Shape Cell A AxisDR) G s' G',
  SameHexBoard s G s' G' -> exists co, Iso s G s' G' co.
Proof.
  intros A s G s' G' H. destruct H; exists (co_r b).
  1: pose proof (sup_axial_r k b w h H H0) as S1.
  2: pose proof (sup_axial_r_dir k b w h H H0) as S1.
  3: pose proof (sup_axial_r_loop k b w h H H0 H1) as S1.
  all: constructor; try reflexivity; try assumption; try (constructor; assumption);
    try (apply axial_board); try (intros; apply place_step_axial).
  all: intros m x y Hx Hy; unfold to_axial; cbn [fst snd];
    destruct (supported_refines _ _ _ _ m S1) as (cell & RF);
    eapply (axial_refines_cell _ _ _ _ m cell); try eassumption; reflexivity.
Qed.

Section Iso.
  Context {A : Type} {s s' : Shape Cell A AxisDR} {G G' : Geometry A AxisDR} {co : Z}
    (ISO : Iso s G s' G' co).

  Lemma iso_in : forall x y,
    In (x, y) (geo_nodes G) <-> 0 <= x < sh_horizontal s /\ 0 <= y < sh_vertical s.
  Proof using ISO. intros. rewrite (iso_nodes _ _ _ _ _ ISO). apply in_rect. Qed.

  Lemma iso_in' : forall c, In c (geo_nodes G) -> In (to_axial co c) (geo_nodes G').
  Proof using ISO. intros. rewrite (iso_nodes' _ _ _ _ _ ISO). apply in_map. auto. Qed.

  Lemma iso_stored : forall m c, In c (geo_nodes G) -> stored_at m s' c (to_axial co c).
  Proof using ISO.
    intros m [x y] H. apply iso_in in H. apply (iso_offset _ _ _ _ _ ISO); tauto.
  Qed.

  Lemma iso_moves : forall m x y, 0 <= x < sh_horizontal s -> 0 <= y < sh_vertical s ->
    exists c', sh_offset_to_coordinate s' m (x, y) = Ok c' /\ stored_at m s' (x, y) c' /\
    forall d, exists t t', sh_move_coord s m (x, y) d = Ok t /\
      sh_move_coord s' m c' d = Ok t' /\
      match t, t' with
      | Some n, Some n' => stored_at m s' n n'
      | None, None => True
      | _, _ => False
      end.
  Proof using ISO.
    intros m x y Hx Hy. exists (to_axial co (x, y)).
    assert (Hin : In (x, y) (geo_nodes G)) by (apply iso_in; auto).
    split; [apply (iso_offset _ _ _ _ _ ISO); auto|].
    split; [apply iso_stored; auto|].
    intros d. exists (geo_step G (x, y) d), (geo_step G' (to_axial co (x, y)) d).
    destruct (supported_refines _ _ _ _ m (iso_sup _ _ _ _ _ ISO)) as (cell & RF).
    destruct (supported_refines _ _ _ _ m (iso_sup' _ _ _ _ _ ISO)) as (cell' & RF').
    split; [apply (rf_move _ _ _ _ RF); auto|].
    split; [apply (rf_move _ _ _ _ RF'); apply iso_in'; auto|].
    rewrite (iso_step _ _ _ _ _ ISO).
    destruct (geo_step G (x, y) d) as [n|] eqn:En; cbn [option_map]; auto.
    apply iso_stored. eapply (rg_in (supported_regular _ _ _ _ (iso_sup _ _ _ _ _ ISO))); eauto.
  Qed.

  Lemma iso_neighbors : forall c, In c (geo_nodes G) ->
    spec_neighbors G' (to_axial co c) = map (to_axial co) (spec_neighbors G c).
  Proof using ISO.
    intros c Hc. unfold spec_neighbors. rewrite (iso_ax _ _ _ _ _ ISO).
    induction (ag_dirs (geo_ax G)); simpl; auto. rewrite map_app, IHl. f_equal.
    rewrite (iso_step _ _ _ _ _ ISO). destruct (geo_step G c a); reflexivity.
  Qed.

  Lemma spec_neighbors_in : forall c n, In n (spec_neighbors G c) -> In n (geo_nodes G).
  Proof using ISO.
    intros c n H. unfold spec_neighbors in H. apply in_flat_map in H.
    destruct H as (d & _ & H). destruct (geo_step G c d) as [c'|] eqn:Es; [|destruct H].
    destruct H as [<-|[]].
    eapply (rg_in (supported_regular _ _ _ _ (iso_sup _ _ _ _ _ ISO))); eauto.
  Qed.

  Lemma iso_edges : forall E m (ef ef' : Cell -> A -> E) c,
    (forall c a, In c (geo_nodes G) -> ef' (to_axial co c) a = ef c a) ->
    In c (geo_nodes G) ->
    Forall2 (same_reference m s') (spec_edges G ef c) (spec_edges G' ef' (to_axial co c)).
  Proof using ISO.
    intros E m ef ef' c Hef Hc. unfold spec_edges. rewrite (iso_ax _ _ _ _ _ ISO).
    induction (ag_dirs (geo_ax G)) as [|d l IH]; simpl; [constructor|].
    apply Forall2_app; [|exact IH].
    rewrite (iso_step _ _ _ _ _ ISO).
    destruct (geo_step G c d) as [n|] eqn:En; cbn [option_map]; [|constructor].
    pose proof (rg_in (supported_regular _ _ _ _ (iso_sup _ _ _ _ _ ISO)) _ _ _ En) as Hn.
    unfold edge_name. rewrite (iso_ax _ _ _ _ _ ISO).
    destruct (find _ _) as [a|].
    { constructor; [|constructor]. unfold same_reference. cbn [er_source er_target er_weight er_direction].
      repeat split; try apply iso_stored; auto. symmetry. apply Hef; auto. }
    destruct (find _ _) as [a|]; [|constructor].
    constructor; [|constructor]. unfold same_reference. cbn [er_source er_target er_weight er_direction].
    repeat split; try apply iso_stored; auto. symmetry. apply Hef; auto.
  Qed.
End Iso.

Lemma c27_moves : forall A (s s' : Shape Cell A AxisDR) G G', SameHexBoard s G s' G' ->
  forall m x y, 0 <= x < sh_horizontal s -> 0 <= y < sh_vertical s ->
  exists c', sh_offset_to_coordinate s' m (x, y) = Ok c' /\ stored_at m s' (x, y) c' /\
  forall d, exists t t', sh_move_coord s m (x, y) d = Ok t /\
    sh_move_coord s' m c' d = Ok t' /\
    match t, t' with
    | Some n, Some n' => stored_at m s' n n'
    | None, None => True
    | _, _ => False
    end.
Proof.
  intros A s s' G G' H. destruct (same_hex_iso _ _ _ _ _ H) as (co & ISO).
  apply (iso_moves ISO).
Qed.

Lemma stored_at_to_axial : forall A (s s' : Shape Cell A AxisDR) G G' co, Iso s G s' G' co ->
  forall m c c', In c' (geo_nodes G') -> stored_at m s' c c' ->
  In c (geo_nodes G) /\ c' = to_axial co c.
Proof.
  intros A s s' G G' co ISO m c c' Hin Hst. rewrite (iso_nodes' _ _ _ _ _ ISO) in Hin.
  apply in_map_iff in Hin. destruct Hin as (c0 & <- & Hc0).
  pose proof (iso_stored ISO m c0 Hc0) as H. unfold stored_at in *. rewrite H in Hst.
  injection Hst as ->. auto.
Qed.

Lemma Forall2_map_r : forall X Y (P : X -> Y -> Prop) f l,
  (forall x, In x l -> P x (f x)) -> Forall2 P l (map f l).
Proof. induction l; simpl; constructor; auto. Qed.

Lemma c27_graph : forall A N E (s s' : Shape Cell A AxisDR) G G', SameHexBoard s G s' G' ->
  forall m (g g' : LatticeGraph Cell A AxisDR N E) nf ef nf' ef',
  Built m s G g nf ef -> Built m s' G' g' nf' ef' ->
  (forall c c' a, In c' (geo_nodes G') -> stored_at m s' c c' -> ef' c' a = ef c a) ->
  forall c c', In c' (geo_nodes G') -> stored_at m s' c c' ->
  (exists l l', Drains (neighbors_next m g c) (neighbors g c) l /\
    Drains (neighbors_next m g' c') (neighbors g' c') l' /\
    Forall2 (stored_at m s') l l') /\
  (exists it l it' l', edges m g c = Ok it /\ Drains (edges_next m g) it l /\
    edges m g' c' = Ok it' /\ Drains (edges_next m g') it' l' /\
    Forall2 (same_reference m s') l l').
Proof.
  intros A N E s s' G G' H m g g' nf ef nf' ef' HB HB' Hef c c' Hin Hst.
  destruct (same_hex_iso _ _ _ _ _ H) as (co & ISO).
  destruct (stored_at_to_axial _ _ _ _ _ _ ISO m c c' Hin Hst) as [Hc ->].
  pose proof (iso_sup _ _ _ _ _ ISO) as S1. pose proof (iso_sup' _ _ _ _ _ ISO) as S2.
  split.
  - exists (spec_neighbors G c), (spec_neighbors G' (to_axial co c)).
    split; [apply (c09 (st_supported _ _ _ _ S1) g nf ef c Outgoing HB Hc)|].
    split; [apply (c09 (st_supported _ _ _ _ S2) g' nf' ef' _ Outgoing HB' Hin)|].
    rewrite (iso_neighbors ISO) by auto. apply Forall2_map_r.
    intros n Hn. apply (iso_stored ISO). eapply (spec_neighbors_in ISO); eauto.
  - destruct (c12 (tr_supported _ _ _ _ S1) g nf ef c HB Hc) as (it & H1 & H2).
    destruct (c12 (tr_supported _ _ _ _ S2) g' nf' ef' _ HB' Hin) as (it' & H1' & H2').
    exists it, (spec_edges G ef c), it', (spec_edges G' ef' (to_axial co c)).
    repeat (split; [assumption|]).
    apply (iso_edges ISO); auto.
    intros c0 a Hc0. apply Hef; [apply (iso_in' ISO); auto|apply (iso_stored ISO); auto].
Qed.

(** ** Directed variants *)

Lemma variants_shape : forall A D (s : Shape Cell A D) s', Variants s s' ->
  sh_horizontal s' = sh_horizontal s /\ sh_vertical s' = sh_vertical s /\
  sh_eqb s' = sh_eqb s /\
  (forall m c, In c (board (sh_horizontal s) (sh_vertical s) (fun x y => (x, y))) ->
     sh_offset_to_coordinate s' m c = sh_offset_to_coordinate s m c) /\
  sh_to_offset s' = sh_to_offset s /\
  sh_offset_to_coordinate s' = sh_offset_to_coordinate s /\
  sh_move_coord s' = sh_move_coord s /\
  (forall m, dir_from_index_unchecked (ax_dir (sh_axis s')) m
             = dir_from_index_unchecked (ax_dir (sh_axis s)) m) /\
  ax_UNDIRECTED_COUNT (sh_axis s') = ax_UNDIRECTED_COUNT (sh_axis s) /\
  sh_is_neighbor s = default_is_neighbor (sh_axis s) (sh_eqb s) (sh_move_coord s) /\
  sh_is_neighbor s' = default_is_neighbor (sh_axis s') (sh_eqb s') (sh_move_coord s').
Proof. intros A D s s' H. destruct H; repeat split. Qed.

Lemma get_direction_variants : forall C A A' D (ax : AxisOps A D) (ax' : AxisOps A' D)
  (eqb : C -> C -> bool) mv m a b n i,
  (forall m, dir_from_index_unchecked (ax_dir ax') m = dir_from_index_unchecked (ax_dir ax) m) ->
  get_direction_from ax' eqb mv m a b n i = get_direction_from ax eqb mv m a b n i.
Proof.
  intros C A A' D ax ax' eqb mv m a b n i H. revert i.
  induction n; intros i; simpl; auto. rewrite H.
  destruct (dir_from_index_unchecked (ax_dir ax) m i); simpl; auto.
  destruct (mv m a a0); simpl; auto. destruct a1; rewrite ?IHn; auto.
Qed.

Lemma c55_shape : forall A D (s : Shape Cell A D) s', Variants s s' -> forall m,
  sh_horizontal s' = sh_horizontal s /\ sh_vertical s' = sh_vertical s /\
  (forall c, sh_to_offset s' m c = sh_to_offset s m c) /\
  (forall o, sh_offset_to_coordinate s' m o = sh_offset_to_coordinate s m o) /\
  (forall c, sh_to_index s' m c = sh_to_index s m c) /\
  (forall i, sh_index_to_coordinate s' m i = sh_index_to_coordinate s m i) /\
  (forall c d, sh_move_coord s' m c d = sh_move_coord s m c d) /\
  (forall a b, sh_get_direction s' m a b = sh_get_direction s m a b) /\
  (forall a b, sh_is_neighbor s' m a b = sh_is_neighbor s m a b).
Proof.
  intros A D s s' H m.
  destruct (variants_shape _ _ _ _ H) as (Hw & Hh & He & _ & Ht & Ho & Hm & Hd & Hu & Hn & Hn').
  assert (Hg : forall a b, sh_get_direction s' m a b = sh_get_direction s m a b).
  { intros. unfold sh_get_direction, default_get_direction. rewrite Hu, He, Hm.
    apply get_direction_variants. auto. }
  split; [auto|]. split; [auto|].
  split; [intros; rewrite Ht; reflexivity|].
  split; [intros; rewrite Ho; reflexivity|].
  split; [intros c; unfold sh_to_index, sh_offset_to_index; rewrite Ht, Hh; reflexivity|].
  split; [intros i; unfold sh_index_to_coordinate, sh_index_to_offset; rewrite Hh, Ho;
          reflexivity|].
  split; [intros; rewrite Hm; reflexivity|]. split; [exact Hg|].
  - intros a b. rewrite Hn, Hn'. unfold default_is_neighbor.
    specialize (Hg a b). unfold sh_get_direction in Hg. rewrite Hg. reflexivity.
Qed.

Lemma Drains_ext : forall St X (f g : St -> outcome (option X * St)) it l,
  (forall it, f it = g it) -> Drains f it l -> Drains g it l.
Proof.
  intros St X f g it l H (it1 & it2 & HC & H1 & H2). exists it1, it2. rewrite <- !H.
  split; auto. clear H1 H2. induction HC; econstructor; eauto. rewrite <- H. auto.
Qed.

Lemma c55_graph : forall A D N N' E E' (s : Shape Cell A D) s' G G', Variants s s' ->
  Stored s G -> Stored s' G' ->
  forall m (g : LatticeGraph Cell A D N E) (g' : LatticeGraph Cell D D N' E') nf ef nf' ef',
  Built m s G g nf ef -> Built m s' G' g' nf' ef' ->
  geo_nodes G' = geo_nodes G /\
  node_bound m g' = node_bound m g /\
  (forall c, to_index m g' c = to_index m g c) /\
  (forall c l, Drains (neighbors_next m g c) (neighbors g c) l <->
               Drains (neighbors_next m g' c) (neighbors g' c) l) /\
  (forall a b, is_adjacent m g' a b = is_adjacent m g a b).
Proof.
  intros A D N N' E E' s s' G G' H ST ST' m g g' nf ef nf' ef' HB HB'.
  destruct (stored_refines _ _ _ _ m ST) as (cell & RF).
  destruct (stored_refines _ _ _ _ m ST') as (cell' & RF').
  destruct (built_rep RF _ _ _ HB) as [Hs _]. destruct (built_rep RF' _ _ _ HB') as [Hs' _].
  destruct (variants_shape _ _ _ _ H) as (Hw & Hh & He & _ & Ht & Ho & Hm & Hd & Hu & _).
  destruct (c55_shape _ _ _ _ H m) as (_ & _ & _ & _ & Hi & _ & _ & _ & Hnb).
  assert (Hnx : forall c st, neighbors_next m g c st = neighbors_next m g' c st).
  { intros c st. unfold neighbors_next. rewrite Hs, Hs', Hu.
    generalize (ax_UNDIRECTED_COUNT (sh_axis s) - st)%nat. intros n. revert st.
    induction n; intros st; simpl; auto. rewrite Hd, Hm.
    destruct (dir_from_index_unchecked (ax_dir (sh_axis s)) m st); simpl; auto.
    destruct (sh_move_coord s m c a); simpl; auto. destruct a0; auto. }
  split; [|split; [|split; [|split]]].
  - rewrite (rf_nodes _ _ _ _ RF), (rf_nodes _ _ _ _ RF'), Hw, Hh.
    unfold board. apply flat_map_ext_in. intros x Hx. apply map_ext_in. intros y Hy.
    rewrite in_zrange in *.
    pose proof (rf_coord _ _ _ _ RF x y Hx Hy) as E1.
    rewrite <- Hw in Hx. rewrite <- Hh in Hy.
    pose proof (rf_coord _ _ _ _ RF' x y Hx Hy) as E2. rewrite Ho in E2. congruence.
  - unfold node_bound, node_count, sh_node_count. rewrite Hs, Hs', Hw, Hh. reflexivity.
  - intros c. unfold to_index. rewrite Hs, Hs', Hi. reflexivity.
  - intros c l. split; apply Drains_ext; auto.
  - intros a b. unfold is_adjacent. rewrite Hs, Hs'. apply Hnb.
Qed.

Lemma c55_edges : forall A D N N' E (s : Shape Cell A D) s' G G', Variants s s' ->
  Supported s G -> Supported s' G' -> ag_directed (geo_ax G') = true ->
  forall m (g : LatticeGraph Cell A D N E) (g' : LatticeGraph Cell D D N' E) nf ef nf' ef',
  Built m s G g nf ef -> Built m s' G' g' nf' ef' ->
  (forall c d c' x a, geo_step G c d = Some c' -> edge_name G c d c' = Some (x, a) ->
     ef' c d = ef x a) ->
  forall c, In c (geo_nodes G) ->
  exists it it' l, edges m g c = Ok it /\ edges m g' c = Ok it' /\
    Drains (edges_next m g) it l /\ Drains (edges_next m g') it' l.
Proof.
  intros A D N N' E s s' G G' H S1 S2 Hdir m g g' nf ef nf' ef' HB HB' Hef c Hc.
  destruct (supported_refines _ _ _ _ m S1) as (cell & RF).
  destruct (supported_refines _ _ _ _ m S2) as (cell' & RF').
  pose proof (supported_regular _ _ _ _ S1) as RG.
  destruct (c55_graph _ _ _ _ _ _ _ _ _ _ H (st_supported _ _ _ _ S1) (st_supported _ _ _ _ S2)
              m g g' _ _ _ _ HB HB') as (Hn & _).
  destruct (variants_shape _ _ _ _ H) as (_ & _ & _ & _ & _ & _ & Hm & Hd & Hu & _).
  assert (Hc' : In c (geo_nodes G')) by (rewrite Hn; auto).
  destruct (c12 (tr_supported _ _ _ _ S1) g nf ef c HB Hc) as (it & H1 & H2).
  destruct (c12 (tr_supported _ _ _ _ S2) g' nf' ef' c HB' Hc') as (it' & H1' & H2').
  exists it, it', (spec_edges G ef c). repeat (split; [assumption|]).
  replace (spec_edges G ef c) with (spec_edges G' ef' c); [assumption|].
  assert (Hdirs : ag_dirs (geo_ax G') = ag_dirs (geo_ax G)).
  { pose proof (rf_axis _ _ _ _ RF) as AX. pose proof (rf_axis _ _ _ _ RF') as AX'.
    apply nth_error_ext. intros i.
    destruct (nth_error (ag_dirs (geo_ax G')) i) as [d|] eqn:E1;
    destruct (nth_error (ag_dirs (geo_ax G)) i) as [d'|] eqn:E2; auto.
    - apply (ao_dir_from_index_unchecked _ _ _ AX') in E1.
      apply (ao_dir_from_index_unchecked _ _ _ AX) in E2. rewrite Hd in E1. congruence.
    - apply nth_error_None in E2. pose proof (nth_error_Some (ag_dirs (geo_ax G')) i) as X.
      rewrite <- (ao_ucount _ _ _ AX), <- Hu, (ao_ucount _ _ _ AX') in E2.
      assert (nth_error (ag_dirs (geo_ax G')) i <> None) by congruence. apply X in H0. lia.
    - apply nth_error_None in E1. pose proof (nth_error_Some (ag_dirs (geo_ax G)) i) as X.
      rewrite <- (ao_ucount _ _ _ AX'), Hu, (ao_ucount _ _ _ AX) in E1.
      assert (nth_error (ag_dirs (geo_ax G)) i <> None) by congruence. apply X in H0. lia. }
  assert (Hfwd : forall d, ag_fwd (geo_ax G') d = d).
  { intros d. pose proof (ao_fwd _ _ _ (rf_axis _ _ _ _ RF') d) as X.
    enough (ax_foward (sh_axis s') m d = Ok d) by congruence. destruct H; reflexivity. }
  unfold spec_edges. rewrite Hdirs. apply flat_map_ext_in. intros d _.
  assert (Hst : geo_step G' c d = geo_step G c d).
  { pose proof (rf_move _ _ _ _ RF c d Hc) as E1.
    pose proof (rf_move _ _ _ _ RF' c d Hc') as E2. rewrite Hm in E2. congruence. }
  rewrite Hst. destruct (geo_step G c d) as [n|] eqn:En; auto.
  assert (Hnm : edge_name G' c d n = Some (c, d)).
  { rewrite <- (Hfwd d) at 1. apply (edge_name_fwd RF'). }
  rewrite Hnm.
  destruct (edge_name_exists RF (regular_readable _ _ _ _ RG) c d n Hc En) as (x & a & Hx & _). rewrite Hx.
  rewrite (Hef _ _ _ _ _ En Hx). reflexivity.
Qed.
