(** * GraphProofs: graphs over a shape that refines a lattice. *)

From Verif Require Import Machine Store Axes Shapes Lattice Spec Basics AxisProofs GeoProofs.
From Coq Require Import ZifyBool ZifyNat.
Ltac Zify.zify_post_hook ::= Z.div_mod_to_equations.

Section G.
  Context {A D N E : Type} {m : mode} {s : Shape Cell A D} {G : Geometry A D}
    {cell : Z -> Z -> Cell} (RF : Refines m s G cell).
  Notation w := (sh_horizontal s).
  Notation h := (sh_vertical s).
  Notation ax := (sh_axis s).
  Notation geo := (geo_ax G).
  Notation graph := (LatticeGraph Cell A D N E).

  Let AX : AxisOK m ax geo := rf_axis _ _ _ _ RF.

  (** ** Cells and offsets *)

  Lemma bounds : 0 <= w < IMAX1 /\ 0 <= h < IMAX1 /\ w * h < IMAX1.
  Proof. apply fits_bounds. apply (rf_fits _ _ _ _ RF). Qed.

  Lemma wh_range : 0 <= w * h < IMAX1.
  Proof. pose proof bounds. nia. Qed.

  Lemma node_cell : forall c, In c (geo_nodes G) <->
    exists x y, 0 <= x < w /\ 0 <= y < h /\ c = cell x y.
  Proof. intros c. rewrite (rf_nodes _ _ _ _ RF). apply in_board. Qed.

  Lemma cell_in : forall x y, 0 <= x < w -> 0 <= y < h -> In (cell x y) (geo_nodes G).
  Proof. intros. apply node_cell. eauto. Qed.

  Lemma cell_inj : forall x y x' y', 0 <= x < w -> 0 <= y < h -> 0 <= x' < w -> 0 <= y' < h ->
    cell x y = cell x' y' -> x = x' /\ y = y'.
  Proof.
    intros x y x' y' Hx Hy Hx' Hy' H.
    pose proof (rf_offset _ _ _ _ RF x y Hx Hy) as H1. rewrite H in H1.
    rewrite (rf_offset _ _ _ _ RF x' y' Hx' Hy') in H1. injection H1 as -> ->. auto.
  Qed.

  Lemma node_count_ok : sh_node_count s m = Ok (w * h).
  Proof.
    pose proof bounds. pose proof wh_range. unfold sh_node_count.
    apply usize_mul_ok. rewrite USIZE_val, IMAX1_val in *. lia.
  Qed.

  Lemma index_split : forall i, 0 <= i < w * h ->
    0 <= i / h < w /\ 0 <= i mod h < h /\ i = i / h * h + i mod h.
  Proof.
    intros i Hi. pose proof bounds as B.
    assert (0 < h) by nia.
    pose proof (Z.div_mod i h ltac:(lia)). pose proof (Z.mod_pos_bound i h ltac:(lia)).
    repeat split; try lia; try nia.
  Qed.

  Lemma index_to_offset_ok : forall i, 0 <= i < w * h ->
    sh_index_to_offset s i = Ok (i / h, i mod h).
  Proof.
    intros i Hi. assert (0 < h) by (pose proof bounds; nia).
    unfold sh_index_to_offset, usize_rem, usize_div.
    replace (h =? 0) with false by lia. reflexivity.
  Qed.

  Lemma index_to_coordinate_ok : forall i, 0 <= i < w * h ->
    sh_index_to_coordinate s m i = Ok (cell (i / h) (i mod h)).
  Proof.
    intros i Hi. unfold sh_index_to_coordinate. rewrite index_to_offset_ok by auto.
    cbn [bind]. destruct (index_split i Hi) as (H1 & H2 & _).
    apply (rf_coord _ _ _ _ RF); auto.
  Qed.

  Lemma to_index_ok : forall x y, 0 <= x < w -> 0 <= y < h ->
    sh_to_index s m (cell x y) = Ok (Some (x * h + y)).
  Proof.
    intros x y Hx Hy. unfold sh_to_index. rewrite (rf_offset _ _ _ _ RF) by auto.
    cbn [bind]. unfold sh_offset_to_index. cbn [fst snd].
    pose proof bounds as B. pose proof wh_range as W. rewrite IMAX1_val in *.
    pose proof (flat_index_lt w h x y Hx Hy).
    rewrite usize_mul_ok by (rewrite USIZE_val; nia). cbn [bind].
    rewrite usize_add_ok by (rewrite USIZE_val; nia). reflexivity.
  Qed.

  Lemma nodes_length : length (geo_nodes G) = Z.to_nat (w * h).
  Proof. rewrite (rf_nodes _ _ _ _ RF). pose proof bounds. apply board_length; lia. Qed.

  Lemma nodes_nth : forall i, 0 <= i < w * h ->
    nth_error (geo_nodes G) (Z.to_nat i) = Some (cell (i / h) (i mod h)).
  Proof.
    intros i Hi. destruct (index_split i Hi) as (H1 & H2 & H3).
    rewrite (rf_nodes _ _ _ _ RF). rewrite H3 at 1. apply board_nth; auto.
  Qed.

  Lemma nodes_map : geo_nodes G = map (fun i => cell (i / h) (i mod h)) (zrange (w * h)).
  Proof.
    apply nth_error_ext. intros i. rewrite nth_error_map.
    destruct (Z_lt_dec (Z.of_nat i) (w * h)) as [Hi|Hi].
    - rewrite zrange_nth by lia. cbn [option_map].
      rewrite <- nodes_nth by lia. f_equal. lia.
    - pose proof wh_range.
      rewrite (proj2 (nth_error_None (geo_nodes G) i)) by (rewrite nodes_length; lia).
      rewrite (proj2 (nth_error_None (zrange (w * h)) i)) by (rewrite zrange_length; lia).
      reflexivity.
  Qed.

  Lemma nodes_nodup : NoDup (geo_nodes G).
  Proof.
    rewrite nodes_map. apply NoDup_nth_error. rewrite map_length, zrange_length.
    intros i j Hi. rewrite !nth_error_map.
    rewrite zrange_nth by auto. cbn [option_map].
    destruct (Nat.ltb j (Z.to_nat (w * h))) eqn:Ej.
    - apply Nat.ltb_lt in Ej. rewrite zrange_nth by auto. cbn [option_map].
      intros [= H].
      destruct (index_split (Z.of_nat i)) as (I1 & I2 & I3); [lia|].
      destruct (index_split (Z.of_nat j)) as (J1 & J2 & J3); [lia|].
      apply cell_inj in H; auto. destruct H as [Ha Hb]. rewrite Ha, Hb in I3. lia.
    - apply Nat.ltb_ge in Ej.
      rewrite (proj2 (nth_error_None (zrange (w * h)) j)) by (rewrite zrange_length; lia).
      discriminate.
  Qed.

  (** ** Contents of the arrays *)

  Definition axis_eqb (a a' : A) : bool := Nat.eqb (ax_to_index ax a) (ax_to_index ax a').

  Lemma axis_eqb_eq : forall a a', axis_eqb a a' = true <-> a = a'.
  Proof using AX.
    intros. unfold axis_eqb. rewrite Nat.eqb_eq. split; [apply (to_index_inj AX)|congruence].
  Qed.

  (** The slots hold [nf] and [ef]; [None] is an uninitialised slot. *)
  Definition Content (nodes : Array2 (option N)) (edges : list (Array2 (option E)))
    (nf : Cell -> option N) (ef : Cell -> A -> option E) : Prop :=
    array_wf nodes w h /\
    (forall x y, 0 <= x < w -> 0 <= y < h -> array_get nodes x y = Some (nf (cell x y))) /\
    length edges = ax_COUNT ax /\
    (forall a, exists arr, nth_error edges (ax_to_index ax a) = Some arr /\ array_wf arr w h /\
      forall x y, 0 <= x < w -> 0 <= y < h -> array_get arr x y = Some (ef (cell x y) a)).

  Definition set_node (nf : Cell -> option N) (c : Cell) (x : option N) (c' : Cell) : option N :=
    if pair_eqb c' c then x else nf c'.
  Definition set_edge (ef : Cell -> A -> option E) (c : Cell) (a : A) (x : option E)
    (c' : Cell) (a' : A) : option E :=
    if pair_eqb c' c && axis_eqb a' a then x else ef c' a'.

  Lemma set_node_eq : forall nf c x, set_node nf c x c = x.
  Proof.
    intros. unfold set_node. replace (pair_eqb c c) with true; auto.
    symmetry. apply pair_eqb_eq. auto.
  Qed.
  Lemma set_node_neq : forall nf c x c', c' <> c -> set_node nf c x c' = nf c'.
  Proof.
    intros. unfold set_node. destruct (pair_eqb c' c) eqn:Eb; auto.
    apply pair_eqb_eq in Eb. congruence.
  Qed.
  Lemma set_edge_eq : forall ef c a x, set_edge ef c a x c a = x.
  Proof.
    intros. unfold set_edge. replace (pair_eqb c c) with true; [replace (axis_eqb a a) with true|];
    auto; symmetry; [apply axis_eqb_eq | apply pair_eqb_eq]; auto.
  Qed.
  Lemma set_edge_neq : forall ef c a x c' a', (c', a') <> (c, a) ->
    set_edge ef c a x c' a' = ef c' a'.
  Proof.
    intros. unfold set_edge. destruct (pair_eqb c' c) eqn:Eb; auto.
    destruct (axis_eqb a' a) eqn:Ea; auto. apply pair_eqb_eq in Eb. apply axis_eqb_eq in Ea.
    congruence.
  Qed.

  Lemma content_set_node : forall nodes edges nf ef x y z, Content nodes edges nf ef ->
    0 <= x < w -> 0 <= y < h ->
    exists nodes', array_set nodes x y z = Some nodes' /\
      Content nodes' edges (set_node nf (cell x y) z) ef.
  Proof.
    intros nodes edges nf ef x y z (Hw & Hn & Hl & He) Hx Hy.
    destruct (array_set_ok _ nodes w h x y z Hw Hx Hy) as (a' & H1 & H2 & H3 & H4).
    exists a'. split; auto. split; [auto|]. split; [|split; auto].
    intros x' y' Hx' Hy'. destruct (Z.eq_dec x' x) as [->|Nx].
    - destruct (Z.eq_dec y' y) as [->|Ny].
      + rewrite set_node_eq. auto.
      + rewrite H4 by congruence. rewrite Hn by auto. rewrite set_node_neq; auto.
        intros H. apply cell_inj in H; lia.
    - rewrite H4 by congruence. rewrite Hn by auto. rewrite set_node_neq; auto.
      intros H. apply cell_inj in H; lia.
  Qed.

  Lemma content_set_edge : forall nodes edges nf ef x y a z arr, Content nodes edges nf ef ->
    0 <= x < w -> 0 <= y < h -> nth_error edges (ax_to_index ax a) = Some arr ->
    exists arr', array_set arr x y z = Some arr' /\
      Content nodes (list_set edges (ax_to_index ax a) arr') nf (set_edge ef (cell x y) a z).
  Proof.
    intros nodes edges nf ef x y a z arr (Hw & Hn & Hl & He) Hx Hy Harr.
    destruct (He a) as (arr0 & H0 & Hwf & Hget). rewrite Harr in H0. injection H0 as <-.
    destruct (array_set_ok _ arr w h x y z Hwf Hx Hy) as (a' & H1 & H2 & H3 & H4).
    exists a'. split; auto. split; [auto|]. split; [auto|].
    split; [rewrite list_set_length; auto|]. intros b.
    destruct (Nat.eq_dec (ax_to_index ax b) (ax_to_index ax a)) as [Eb|Nb].
    - apply (to_index_inj AX) in Eb. subst b. exists a'. split; [|split; auto].
      + apply nth_error_list_set_eq. rewrite Hl. apply (to_index_lt AX).
      + intros x' y' Hx' Hy'. destruct (Z.eq_dec x' x) as [->|Nx].
        * destruct (Z.eq_dec y' y) as [->|Ny].
          -- rewrite set_edge_eq. auto.
          -- rewrite H4 by congruence. rewrite Hget by auto. rewrite set_edge_neq; auto.
             intros [= H]. apply cell_inj in H; lia.
        * rewrite H4 by congruence. rewrite Hget by auto. rewrite set_edge_neq; auto.
          intros [= H]. apply cell_inj in H; lia.
    - destruct (He b) as (arrb & Hb1 & Hb2 & Hb3). exists arrb.
      split; [|split; auto].
      + rewrite nth_error_list_set_neq by congruence. auto.
      + intros x' y' Hx' Hy'. rewrite Hb3 by auto. rewrite set_edge_neq; auto. congruence.
  Qed.

  (** ** new_uninit *)

  Lemma uninit_edges_ok : forall n, exists l, @uninit_edges Cell A D E s n = Ok l /\ length l = n /\
    forall i, (i < n)%nat -> exists arr, nth_error l i = Some arr /\ array_wf arr w h /\
      forall x y, 0 <= x < w -> 0 <= y < h -> array_get arr x y = Some None.
  Proof.
    induction n as [|n (l & H1 & H2 & H3)]; cbn [uninit_edges].
    - exists []. repeat split; auto. intros; lia.
    - pose proof bounds as B.
      destruct (array_uninit_ok E w h (fits_alloc _ _ (rf_fits _ _ _ _ RF))
                  ltac:(lia) ltac:(lia)) as (a & Ha & Hwf & Hg).
      rewrite Ha, H1. cbn [bind]. exists (a :: l). split; auto. split; [simpl; lia|].
      intros [|i] Hi; simpl; [exists a; auto|]. apply H3. lia.
  Qed.

  Lemma new_uninit_ok : exists g : graph, new_uninit m s = Ok g /\ g_s g = s /\
    Content (g_nodes g) (g_edges g) (fun _ => None) (fun _ _ => None).
  Proof using RF.
    pose proof bounds as B. unfold new_uninit.
    destruct (array_uninit_ok N w h (fits_alloc _ _ (rf_fits _ _ _ _ RF))
                ltac:(lia) ltac:(lia)) as (a & Ha & Hwf & Hg).
    destruct (uninit_edges_ok (ax_COUNT ax)) as (l & H1 & H2 & H3).
    rewrite Ha, H1. cbn [bind]. rewrite H2, Nat.eqb_refl.
    replace (debug_assert m true) with (Ok tt) by (destruct m; reflexivity). cbn [bind].
    eexists. split; [reflexivity|]. split; [reflexivity|]. cbn [g_nodes g_edges].
    split; [auto|]. split; [auto|]. split; [auto|].
    intros a'. apply H3. apply (to_index_lt AX).
  Qed.

  (** ** new_with *)

  Section New.
    Context {St : Type} (n : St -> Cell -> N * St) (e : St -> Cell -> A -> E * St).

    Definition cell_edge_calls (c : Cell) (axes : list A) : list (Call A) :=
      flat_map (fun a => match geo_step G c (ag_fwd geo a) with
                         | Some _ => [CallEdge c a] | None => [] end) axes.
    Definition cell_calls (c : Cell) : list (Call A) :=
      CallNode c :: cell_edge_calls c (ag_axes geo).

    (** What a call does to the weights and to the closures' state. *)
    Definition do_call (acc : (Cell -> option N) * (Cell -> A -> option E) * St) (k : Call A) :=
      let '(nf, ef, st) := acc in
      match k with
      | CallNode c => let (x, st') := n st c in (set_node nf c (Some x), ef, st')
      | CallEdge c a => let (x, st') := e st c a in (nf, set_edge ef c a (Some x), st')
      end.

    (** The arrays of a partly processed list of axes. *)
    Lemma new_edges_loop_ok : forall x y nodes nf, 0 <= x < w -> 0 <= y < h ->
      forall rest pre ef st,
      Content nodes (pre ++ rest) nf ef ->
      exists rest' ef' st',
        new_edges_loop s e m (x, y) (cell x y) (length pre) rest st = Ok (rest', st') /\
        Content nodes (pre ++ rest') nf ef' /\
        fold_left do_call (cell_edge_calls (cell x y) (skipn (length pre) (ag_axes geo)))
          (nf, ef, st) = (nf, ef', st').
    Proof using RF AX.
      intros x y nodes nf Hx Hy. induction rest as [|edge rest IH]; intros pre ef st HC.
      - exists [], ef, st. cbn [new_edges_loop]. split; auto. split; auto.
        destruct HC as (_ & _ & Hl & _). rewrite app_nil_r in Hl.
        rewrite Hl, (ao_count _ _ _ AX). rewrite skipn_all. reflexivity.
      - assert (Hlen : (length pre < length (ag_axes geo))%nat).
        { destruct HC as (_ & _ & Hl & _). rewrite app_length in Hl. simpl in Hl.
          rewrite (ao_count _ _ _ AX) in Hl. lia. }
        destruct (nth_error (ag_axes geo) (length pre)) as [a|] eqn:Ea;
          [|apply nth_error_None in Ea; lia].
        assert (Hskip : skipn (length pre) (ag_axes geo)
                        = a :: skipn (S (length pre)) (ag_axes geo)).
        { clear - Ea. revert Ea. generalize (length pre). generalize (ag_axes geo).
          induction l; intros [|k] H; simpl in *; try discriminate; try congruence.
          apply IHl; auto. }
        assert (Hidx : ax_to_index ax a = length pre) by (apply (ao_nth_inv _ _ _ AX); auto).
        cbn [new_edges_loop]. rewrite (ao_from_index_unchecked _ _ _ AX _ _ Ea). cbn [bind].
        rewrite (ao_fwd _ _ _ AX). cbn [bind].
        rewrite (rf_move _ _ _ _ RF) by (apply cell_in; auto). cbn [bind].
        rewrite Hskip. unfold cell_edge_calls. cbn [flat_map].
        destruct (geo_step G (cell x y) (ag_fwd geo a)) as [t|] eqn:Et.
        + destruct (e st (cell x y) a) as [ex st1] eqn:Ee. cbn [fst snd].
          destruct (content_set_edge nodes (pre ++ edge :: rest) nf ef x y a (Some ex) edge HC Hx Hy)
            as (arr' & Hset & HC').
          { rewrite Hidx. rewrite nth_error_app2 by lia. rewrite Nat.sub_diag. reflexivity. }
          rewrite Hset. cbn [app].
          assert (Hls : list_set (pre ++ edge :: rest) (ax_to_index ax a) arr'
                        = (pre ++ [arr']) ++ rest).
          { rewrite Hidx. clear. induction pre; simpl; auto. f_equal; auto. }
          rewrite Hls in HC'.
          destruct (IH (pre ++ [arr']) _ st1 HC') as (rest' & ef' & st' & R1 & R2 & R3).
          rewrite app_length in R1, R3. simpl in R1, R3.
          replace (length pre + 1)%nat with (S (length pre)) in R1, R3 by lia.
          rewrite R1. cbn [bind]. exists (arr' :: rest'), ef', st'. split; auto.
          rewrite <- app_assoc in R2. split; auto.
          cbn [fold_left do_call]. rewrite Ee. exact R3.
        + destruct (IH (pre ++ [edge]) ef st) as (rest' & ef' & st' & R1 & R2 & R3).
          { rewrite <- app_assoc. exact HC. }
          rewrite app_length in R1, R3. simpl in R1, R3.
          replace (length pre + 1)%nat with (S (length pre)) in R1, R3 by lia.
          rewrite R1. cbn [bind]. exists (edge :: rest'), ef', st'. split; auto.
          rewrite <- app_assoc in R2. split; auto.
    Qed.

    Lemma new_with_step_ok : forall i nodes edges nf ef st, 0 <= i < w * h ->
      Content nodes edges nf ef ->
      exists nodes' edges' nf' ef' st',
        new_with_step s n e m (nodes, edges, st) i = Ok (nodes', edges', st') /\
        Content nodes' edges' nf' ef' /\
        fold_left do_call (cell_calls (cell (i / h) (i mod h))) (nf, ef, st) = (nf', ef', st').
    Proof using RF AX.
      intros i nodes edges nf ef st Hi HC. destruct (index_split i Hi) as (Hx & Hy & Hxy).
      unfold new_with_step. rewrite index_to_offset_ok by auto. cbn [bind].
      rewrite (rf_coord _ _ _ _ RF) by auto. cbn [bind].
      destruct (n st (cell (i / h) (i mod h))) as [nw st1] eqn:En.
      destruct HC as (Hwf & Hrest). destruct Hwf as (Hr & Hcol & Hlen).
      replace ((0 <=? i) && (i <? Z.of_nat (length (cells nodes)))) with true by lia. cbn [bind].
      destruct (content_set_node nodes edges nf ef (i / h) (i mod h) (Some nw))
        as (nodes' & Hset & HC'); auto.
      { split; [split|]; auto. }
      assert (Hn' : mkArray2 (nrows nodes) (ncols nodes)
                      (list_set (cells nodes) (Z.to_nat i) (Some nw)) = nodes').
      { unfold array_set in Hset. destruct (in_bounds nodes (i / h) (i mod h)); [|discriminate].
        injection Hset as <-. unfold flat_index. rewrite Hcol. do 3 f_equal. exact Hxy. }
      rewrite Hn'.
      destruct (new_edges_loop_ok (i / h) (i mod h) nodes' _ Hx Hy edges [] ef st1 HC')
        as (edges' & ef' & st' & R1 & R2 & R3); auto.
      cbn [length] in R1, R3. rewrite R1. cbn [bind].
      do 5 eexists. split; [reflexivity|]. split; [exact R2|].
      unfold cell_calls. cbn [fold_left do_call]. rewrite En. exact R3.
    Qed.

    Lemma new_with_fold : forall k nodes edges nf ef st, 0 <= k <= w * h ->
      Content nodes edges nf ef ->
      exists nodes' edges' nf' ef' st',
        fold_outcome (new_with_step s n e m) (zrange k) (nodes, edges, st)
          = Ok (nodes', edges', st') /\
        Content nodes' edges' nf' ef' /\
        fold_left do_call (flat_map cell_calls (map (fun i => cell (i / h) (i mod h)) (zrange k)))
          (nf, ef, st) = (nf', ef', st').
    Proof using RF AX.
      intros k nodes edges nf ef st Hk HC. pose proof (proj1 Hk) as Hk0. revert Hk.
      pattern k. apply natlike_ind; [intros _ | | exact Hk0].
      - rewrite zrange_nonpos by lia. exists nodes, edges, nf, ef, st. auto.
      - intros i Hi IH Hk. destruct IH as (n1 & e1 & nf1 & ef1 & st1 & R1 & R2 & R3); [lia|].
        unfold Z.succ. rewrite zrange_succ by lia. rewrite fold_outcome_app, R1. cbn [bind].
        destruct (new_with_step_ok i n1 e1 nf1 ef1 st1) as (n2 & e2 & nf2 & ef2 & st2 & S1 & S2 & S3);
          [lia | auto |].
        exists n2, e2, nf2, ef2, st2. cbn [fold_outcome]. rewrite S1. cbn [bind].
        split; auto. split; auto.
        rewrite map_app, flat_map_app, fold_left_app, R3. cbn [map flat_map].
        rewrite app_nil_r. exact S3.
    Qed.

    Lemma new_with_content : forall st,
      exists g nf ef st', new_with s n e m st = Ok (g, st') /\ g_s g = s /\
        Content (g_nodes g) (g_edges g) nf ef /\
        fold_left do_call (spec_calls G) (fun _ => None, fun _ _ => None, st) = (nf, ef, st').
    Proof using RF AX.
      intros st. unfold new_with. destruct new_uninit_ok as (u & Hu & Hs & HC).
      rewrite Hu. cbn [bind]. rewrite node_count_ok. cbn [bind].
      destruct (new_with_fold (w * h) _ _ _ _ st ltac:(pose proof wh_range; lia) HC)
        as (n1 & e1 & nf1 & ef1 & st1 & R1 & R2 & R3).
      rewrite R1. cbn [bind]. do 4 eexists. split; [reflexivity|]. split; [reflexivity|].
      split; [exact R2|]. unfold spec_calls. rewrite nodes_map. exact R3.
    Qed.

    Lemma do_call_state : forall l nf ef st, exists nf' ef',
      fold_left do_call l (nf, ef, st) = (nf', ef', state_after n e l st).
    Proof.
      unfold state_after.
      induction l as [|k l IH]; intros nf ef st; cbn [fold_left]; eauto.
      destruct k; cbn [do_call call_state].
      - destruct (n st c) as [x st1]. cbn [snd]. apply IH.
      - destruct (e st c a) as [x st1]. cbn [snd]. apply IH.
    Qed.

    Lemma do_call_other_node : forall l nf ef st c nf' ef' st',
      ~ In (CallNode c) l -> fold_left do_call l (nf, ef, st) = (nf', ef', st') -> nf' c = nf c.
    Proof.
      induction l as [|k l IH]; intros nf ef st c nf' ef' st' Hn H; cbn [fold_left] in H.
      - congruence.
      - destruct k; cbn [do_call] in H.
        + destruct (n st c0) as [x st1]. rewrite (IH _ _ _ _ _ _ _ (fun Hi => Hn (or_intror Hi)) H).
          apply set_node_neq. intros ->. apply Hn. left; auto.
        + destruct (e st c0 a) as [x st1].
          apply (IH _ _ _ _ _ _ _ (fun Hi => Hn (or_intror Hi)) H).
    Qed.

    Lemma do_call_other_edge : forall l nf ef st c a nf' ef' st',
      ~ In (CallEdge c a) l -> fold_left do_call l (nf, ef, st) = (nf', ef', st') ->
      ef' c a = ef c a.
    Proof using AX.
      induction l as [|k l IH]; intros nf ef st c a nf' ef' st' Hn H; cbn [fold_left] in H.
      - congruence.
      - destruct k; cbn [do_call] in H.
        + destruct (n st c0) as [x st1].
          apply (IH _ _ _ _ _ _ _ _ (fun Hi => Hn (or_intror Hi)) H).
        + destruct (e st c0 a0) as [x st1].
          rewrite (IH _ _ _ _ _ _ _ _ (fun Hi => Hn (or_intror Hi)) H).
          apply set_edge_neq. intros [= -> ->]. apply Hn. left; auto.
    Qed.

    Lemma do_call_node : forall l1 l2 nf ef st c nf' ef' st',
      ~ In (CallNode c) l2 ->
      fold_left do_call (l1 ++ CallNode c :: l2) (nf, ef, st) = (nf', ef', st') ->
      nf' c = Some (fst (n (state_after n e l1 st) c)).
    Proof.
      intros l1 l2 nf ef st c nf' ef' st' Hn H. rewrite fold_left_app in H.
      destruct (do_call_state l1 nf ef st) as (nf1 & ef1 & H1). rewrite H1 in H.
      cbn [fold_left do_call] in H.
      destruct (n (state_after n e l1 st) c) as [x st1] eqn:En. cbn [fst].
      rewrite (do_call_other_node _ _ _ _ _ _ _ _ Hn H). apply set_node_eq.
    Qed.

    Lemma do_call_edge : forall l1 l2 nf ef st c a nf' ef' st',
      ~ In (CallEdge c a) l2 ->
      fold_left do_call (l1 ++ CallEdge c a :: l2) (nf, ef, st) = (nf', ef', st') ->
      ef' c a = Some (fst (e (state_after n e l1 st) c a)).
    Proof using AX.
      intros l1 l2 nf ef st c a nf' ef' st' Hn H. rewrite fold_left_app in H.
      destruct (do_call_state l1 nf ef st) as (nf1 & ef1 & H1). rewrite H1 in H.
      cbn [fold_left do_call] in H.
      destruct (e (state_after n e l1 st) c a) as [x st1] eqn:En. cbn [fst].
      rewrite (do_call_other_edge _ _ _ _ _ _ _ _ _ Hn H). apply set_edge_eq.
    Qed.
  End New.
End G.
