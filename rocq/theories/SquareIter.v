(** * SquareIter: indices and iterators of [SquareGraph]. *)

From Verif Require Import Machine Store Spec SquareGraph SpecSquare Basics GeoProofs RepProofs
  IterProofs SquareProofs.
From Coq Require Import ZifyBool ZifyNat.
Ltac Zify.zify_post_hook ::= Z.div_mod_to_equations.

Lemma ix_size_bounds : forall ix, 2 ^ 8 <= ix_size ix <= 2 ^ 64.
Proof. destruct ix; cbn [ix_size]; lia. Qed.

Lemma ix_new_small : forall ix x, 0 <= x < ix_size ix -> ix_new ix x = x.
Proof. intros. unfold ix_new. apply Z.mod_small. auto. Qed.

Lemma ix_new_0 : forall ix, ix_new ix 0 = 0.
Proof. destruct ix; reflexivity. Qed.

(** ** Iterators that try four states in turn *)

Definition opt_list {X} (x : option X) : list X := match x with Some x => [x] | None => [] end.

Section Scan.
  Context {St X : Type} (body : St -> outcome (St + (option X * St))) (mk : Z -> St)
    (f : Z -> option X).
  Hypothesis Hbody : forall k, 0 <= k < 4 ->
    body (mk k) = Ok (match f k with Some x => inr (Some x, mk (k + 1)) | None => inl (mk (k + 1)) end).
  Hypothesis Hend : body (mk 4) = Ok (inr (None, mk 4)).

  Definition scan_pos (it : St) (l : list X) : Prop :=
    exists k, it = mk k /\ 0 <= k <= 4 /\ l = flat_map (fun j => opt_list (f j)) (skipn (Z.to_nat k) [0; 1; 2; 3]).

  Lemma scan_rounds : forall n k, 0 <= k <= 4 -> n = Z.to_nat (4 - k) ->
    match flat_map (fun j => opt_list (f j)) (skipn (Z.to_nat k) [0; 1; 2; 3]) with
    | [] => Rounds body n (mk k) (Ok (None, mk 4))
    | x :: l => exists n' it', (n' <= n)%nat /\ Rounds body n' (mk k) (Ok (Some x, it')) /\ scan_pos it' l
    end.
  Proof.
    induction n as [|n IH]; intros k Hk Hn.
    - assert (k = 4) as -> by lia. cbn. constructor. exact Hend.
    - assert (Hk' : 0 <= k < 4) by lia.
      assert (Hs : skipn (Z.to_nat k) [0; 1; 2; 3] = k :: skipn (Z.to_nat (k + 1)) [0; 1; 2; 3]).
      { assert (k = 0 \/ k = 1 \/ k = 2 \/ k = 3) as [-> | [-> | [-> | ->]]] by lia; reflexivity. }
      rewrite Hs. cbn [flat_map]. pose proof (Hbody k Hk') as Hb.
      specialize (IH (k + 1) ltac:(lia) ltac:(lia)). destruct (f k) as [x|]; cbn [opt_list app].
      + exists O, (mk (k + 1)). split; [lia|]. split; [constructor; exact Hb|].
        exists (k + 1). split; auto. split; [lia|reflexivity].
      + destruct (flat_map _ (skipn (Z.to_nat (k + 1)) [0; 1; 2; 3])) as [|x l] eqn:El.
        * econstructor; eauto.
        * destruct IH as (n' & it' & H1 & H2 & H3). exists (S n'), it'. split; [lia|]. split; auto.
          econstructor; eauto.
  Qed.

  Lemma scan_inv : IterInv (loop body) scan_pos.
  Proof.
    intros it l (k & -> & Hk & ->). pose proof (scan_rounds _ k Hk eq_refl) as H.
    destruct (flat_map _ (skipn (Z.to_nat k) [0; 1; 2; 3])) as [|x l].
    - exists (mk 4). split.
      + eapply loop_rounds; [exact H|lia].
      + eapply loop_rounds; [constructor; exact Hend|lia].
    - destruct H as (n' & it' & H1 & H2 & H3). exists it'. split; auto.
      eapply loop_rounds; [exact H2|lia].
  Qed.

  Lemma scan_start : scan_pos (mk 0) (flat_map (fun j => opt_list (f j)) [0; 1; 2; 3]).
  Proof. exists 0. split; auto. split; [lia|reflexivity]. Qed.

  Lemma scan_len : forall it l, scan_pos it l -> exists k, it = mk k /\ 0 <= k <= 4 /\ Z.of_nat (length l) <= 4 - k.
  Proof using.
    clear Hbody Hend body. intros it l (k & -> & Hk & ->). exists k. split; auto. split; auto.
    pose proof (flat_map_le _ _ (fun j => opt_list (f j)) (skipn (Z.to_nat k) [0; 1; 2; 3])) as H.
    rewrite skipn_length in H. cbn [length] in H.
    assert (H' : (forall x, (length (opt_list (f x)) <= 1)%nat)) by (intros x; destruct (f x); cbn; lia).
    specialize (H H'). lia.
  Qed.
End Scan.

Section Iter.
  Context {N E : Type} {ix : IxType} {S : LoopShape} {m : mode} {h v : Z}
    (SZ : sq_size S h v) (FX : sq_index_fits ix h v).
  Notation graph := (SquareGraph N E ix S).

  Lemma sizes : 1 <= h /\ 0 <= v /\ h * Z.max 1 v < 2 ^ 63 /\ h < 2 ^ 63 /\ v < 2 ^ 63 /\ h * v < 2 ^ 63.
  Proof using SZ. destruct SZ as (H1 & H2 & H3). destruct (loops_v S); nia. Qed.

  Lemma ix_x : forall x, 0 <= x < h -> ix_new ix x = x.
  Proof using FX. intros x Hx. apply ix_new_small. destruct FX. lia. Qed.
  Lemma ix_y : forall y, 0 <= y < v -> ix_new ix y = y.
  Proof using FX. intros x Hx. apply ix_new_small. destruct FX. lia. Qed.

  Lemma counts : forall (g : graph) nf ef, SqRep h v g nf ef ->
    horizontal_node_count g = h /\ vertical_node_count g = v /\ sg_node_count g = h * v /\ sg_node_bound g = h * v.
  Proof. intros g nf ef [(H1 & H2 & H3) _ _ _ _ _]. repeat split; auto. Qed.

  (** ** Indices *)

  Lemma sq_in_nodes : forall n, In n (sq_nodes h v) <-> on_board h v n.
  Proof.
    intros [x y]. unfold sq_nodes. rewrite in_board. split.
    - intros (x' & y' & Hx & Hy & Heq). injection Heq as -> ->. split; auto.
    - intros [Hx Hy]. exists x, y. auto.
  Qed.

  Lemma sq_nodes_length : Z.of_nat (length (sq_nodes h v)) = h * v.
  Proof using SZ. pose proof sizes. unfold sq_nodes. rewrite board_length by lia. nia. Qed.

  Lemma sq_nodes_few : Z.of_nat (length (sq_nodes h v)) <= 2 ^ 63.
  Proof using SZ. rewrite sq_nodes_length. pose proof sizes. lia. Qed.

  Lemma sq_nodes_nth : forall x y, 0 <= x < h -> 0 <= y < v ->
    nth_error (sq_nodes h v) (Z.to_nat (x * v + y)) = Some (x, y).
  Proof. intros. unfold sq_nodes. rewrite board_nth by auto. reflexivity. Qed.

  Lemma to_index_ok : forall (g : graph) nf ef x y, SqRep h v g nf ef -> 0 <= x < h -> 0 <= y < v ->
    sg_to_index m g (x, y) = Ok (x * v + y).
  Proof using SZ.
    intros g nf ef x y R Hx Hy. pose proof sizes. destruct (counts _ _ _ R) as (_ & C2 & _).
    unfold sg_to_index. rewrite C2. cbn [fst snd].
    rewrite usize_mul_ok by (rewrite USIZE_pow; nia). cbn [bind].
    apply usize_add_ok. rewrite USIZE_pow. nia.
  Qed.

  Lemma from_index_ok : forall (g : graph) nf ef i, SqRep h v g nf ef -> 0 <= i < h * v ->
    sg_from_index g i = Ok (i / v, i mod v) /\ 0 <= i / v < h /\ 0 <= i mod v < v.
  Proof using SZ FX.
    intros g nf ef i R Hi. pose proof sizes. destruct (counts _ _ _ R) as (_ & C2 & _).
    assert (Hv : 0 < v) by nia.
    assert (Hq : 0 <= i / v < h).
    { split; [apply Z.div_pos; lia|]. apply Z.div_lt_upper_bound; lia. }
    pose proof (Z.mod_pos_bound i v Hv) as Hr.
    unfold sg_from_index. rewrite C2. unfold usize_div, usize_rem.
    replace (v =? 0) with false by lia. cbn [bind]. unfold ni_of_pair. cbn [fst snd].
    rewrite ix_x, ix_y by auto. auto.
  Qed.

  (** ** Node iterators *)

  (** The state of [NodeIndices]; on a board without rows it runs over positions that are
      not on the board. *)
  Definition ni_pos (it : SqNodeIndices) (l : list NodeIndex) : Prop :=
    ni_h_max it = h /\ ni_v_max it = v /\ 0 <= ni_h it < h /\
    (1 <= v /\ 0 <= ni_v it <= v /\ l = skipn (Z.to_nat (ni_h it * v + ni_v it)) (sq_nodes h v)
     \/ v = 0 /\ 0 <= ni_v it <= 1 /\ l = map (fun k => (ni_h it + 1 + k, 0)) (zrange (h - 1 - ni_h it))).

  Lemma ni_start : ni_pos (node_indices_new h v)
    (if 1 <=? v then sq_nodes h v else map (fun k => (1 + k, 0)) (zrange (h - 1))).
  Proof using SZ.
    pose proof sizes. unfold ni_pos, node_indices_new. cbn [ni_h_max ni_v_max ni_h ni_v].
    split; auto. split; auto. split; [lia|]. destruct (Z.leb_spec 1 v).
    - left. repeat split; try lia.
    - right. repeat split; try lia. rewrite Z.sub_0_r. reflexivity.
  Qed.

  Lemma zrange_head : forall n, 0 < n -> exists l, zrange n = 0 :: l /\ l = map (fun k => 1 + k) (zrange (n - 1)).
  Proof.
    intros n Hn. unfold zrange. replace (Z.to_nat n) with (Datatypes.S (Z.to_nat (n - 1))) by lia.
    cbn [seq map]. eexists. split; [reflexivity|]. rewrite <- seq_shift, !map_map. apply map_ext. intros a. lia.
  Qed.

  Lemma ni_inv : IterInv (sg_node_indices_next (ix := ix) m) ni_pos.
  Proof using SZ FX.
    pose proof sizes as HS. intros [hm a vm b] l (H1 & H2 & H3 & H4).
    cbn [ni_h_max ni_v_max ni_h ni_v] in *. subst hm vm.
    unfold sg_node_indices_next. cbn [ni_h_max ni_v_max ni_h ni_v].
    destruct H4 as [(Hv & Hb & Hl)|(Hv & Hb & Hl)].
    - destruct (Z.ltb_spec b v) as [Hlt|Hge].
      + rewrite (skipn_nth _ _ _ _ (sq_nodes_nth a b H3 (conj (proj1 Hb) Hlt))) in Hl. subst l.
        rewrite usize_add_ok by (rewrite USIZE_pow; lia). cbn [bind].
        rewrite ix_x, ix_y by lia. eexists. split; [reflexivity|].
        split; auto. split; auto. split; auto. left. cbn [ni_h ni_v]. split; auto. split; [lia|].
        f_equal. nia.
      + assert (b = v) as -> by lia. rewrite usize_add_ok by (rewrite USIZE_pow; lia). cbn [bind].
        destruct (Z.ltb_spec (a + 1) h) as [Hn|Hn].
        * assert (Ha : 0 <= a + 1 < h) by lia. assert (H0 : 0 <= 0 < v) by lia.
          replace (a * v + v) with ((a + 1) * v + 0) in Hl by lia.
          rewrite (skipn_nth _ _ _ _ (sq_nodes_nth (a + 1) 0 Ha H0)) in Hl. subst l.
          rewrite ix_x, ix_new_0 by lia. eexists. split; [reflexivity|].
          split; auto. split; auto. split; auto. left. cbn [ni_h ni_v]. split; auto. split; [lia|].
          f_equal. nia.
        * assert (Hend : h = a + 1) by lia.
          rewrite skipn_short in Hl by (pose proof sq_nodes_length; nia). subst l.
          eexists. split; [reflexivity|]. cbn [ni_h_max ni_v_max ni_h ni_v].
          replace (v <? v) with false by lia. rewrite usize_add_ok by (rewrite USIZE_pow; lia).
          cbn [bind]. replace (a + 1 <? h) with false by lia. reflexivity.
    - replace (b <? v) with false by lia. rewrite usize_add_ok by (rewrite USIZE_pow; lia). cbn [bind].
      destruct (Z.ltb_spec (a + 1) h) as [Hn|Hn].
      + destruct (zrange_head (h - 1 - a)) as (l' & E1 & E2); [lia|]. rewrite E1, E2 in Hl. cbn [map] in Hl.
        subst l. rewrite ix_x, ix_new_0 by lia. replace (a + 1 + 0) with (a + 1) by lia.
        eexists. split; [reflexivity|].
        split; auto. split; auto. split; [cbn; lia|]. right. cbn [ni_h ni_v]. split; auto. split; [lia|].
        rewrite map_map. replace (h - 1 - (a + 1)) with (h - 1 - a - 1) by lia. apply map_ext. intros k. f_equal. lia.
      + rewrite zrange_nonpos in Hl by lia. subst l. eexists. split; [reflexivity|].
        cbn [ni_h_max ni_v_max ni_h ni_v]. replace (b <? v) with false by lia.
        rewrite usize_add_ok by (rewrite USIZE_pow; lia). cbn [bind].
        replace (a + 1 <? h) with false by lia. reflexivity.
  Qed.

  Lemma ni_len : forall it l, ni_pos it l -> Z.of_nat (length l) < 2 ^ 63.
  Proof using SZ.
    pose proof sizes. intros it l (H1 & H2 & H3 & [(Hv & Hb & ->)|(Hv & Hb & ->)]).
    - rewrite skipn_length. pose proof sq_nodes_length. lia.
    - rewrite map_length, zrange_length. lia.
  Qed.

  Lemma ni_size_hint : forall it l, ni_pos it l -> 1 <= v ->
    sg_node_indices_size_hint m it = Ok (Z.of_nat (length l), Some (Z.of_nat (length l))).
  Proof using SZ.
    pose proof sizes. intros [hm a vm b] l (H1 & H2 & H3 & H4) Hv.
    cbn [ni_h_max ni_v_max ni_h ni_v] in *. subst hm vm.
    destruct H4 as [(_ & Hb & ->)|(H0 & _)]; [|lia].
    unfold sg_node_indices_size_hint. cbn [ni_h_max ni_v_max ni_h ni_v].
    rewrite usize_sub_ok by (rewrite USIZE_pow; lia). cbn [bind].
    rewrite usize_mul_ok by (rewrite USIZE_pow; nia). cbn [bind].
    rewrite usize_sub_ok by (rewrite USIZE_pow; nia). cbn [bind].
    rewrite skipn_length. pose proof sq_nodes_length as L.
    replace (Z.of_nat (length (sq_nodes h v) - Z.to_nat (a * v + b))) with (v * (h - a) - b); auto.
    nia.
  Qed.

  Lemma rep_cells : forall (g : graph) nf ef, SqRep h v g nf ef ->
    cells (sg_nodes g) = map nf (sq_nodes h v).
  Proof using SZ.
    intros g nf ef R. pose proof sizes as HS. pose proof R as [W _ _ G _ _]. pose proof W as (W1 & W2 & W3).
    apply nth_error_ext. intros i.
    destruct (Z_lt_le_dec (Z.of_nat i) (h * v)) as [Hlt|Hge].
    - assert (Hv : 0 < v) by nia. set (x := Z.of_nat i / v). set (y := Z.of_nat i mod v).
      assert (Hx : 0 <= x < h).
      { unfold x. split; [apply Z.div_pos; lia|]. apply Z.div_lt_upper_bound; lia. }
      assert (Hy : 0 <= y < v) by (apply Z.mod_pos_bound; lia).
      assert (Hi : i = Z.to_nat (x * v + y)).
      { unfold x, y. pose proof (Z.div_mod (Z.of_nat i) v). lia. }
      rewrite Hi, nth_error_map, (sq_nodes_nth x y Hx Hy). cbn [option_map].
      rewrite <- (array_get_ok _ _ _ _ x y W Hx Hy). auto.
    - transitivity (@None N); [apply nth_error_None; lia|]. symmetry. apply nth_error_None.
      rewrite map_length. pose proof sq_nodes_length. lia.
  Qed.

  Definition nr_pos (nf : NodeIndex -> N) (it : SqNodeReferences N) (l : list (NodeIndex * N)) : Prop :=
    exists ln, ni_pos (nr_indices it) ln /\
      nr_nodes it = (if 1 <=? v then map nf ln else []) /\
      l = (if 1 <=? v then map (fun n => (n, nf n)) ln else []).

  Lemma nr_inv : forall nf, IterInv (sg_node_references_next (ix := ix) m) (nr_pos nf).
  Proof using SZ FX.
    intros nf [ind rest] l (ln & H1 & H2 & H3). cbn [nr_indices nr_nodes] in *.
    unfold sg_node_references_next. cbn [nr_indices nr_nodes].
    destruct (Z.leb_spec 1 v) as [Hv|Hv].
    - destruct ln as [|n ln]; cbn [map] in *; subst rest l.
      + eexists. split; reflexivity.
      + destruct (ni_inv _ _ H1) as (ind' & E1 & E2). rewrite E1. cbn [bind].
        eexists. split; [reflexivity|]. exists ln. cbn [nr_indices nr_nodes].
        replace (1 <=? v) with true by lia. auto.
    - subst rest l. eexists. split; reflexivity.
  Qed.

  Lemma nr_start : forall (g : graph) nf ef, SqRep h v g nf ef ->
    nr_pos nf (sg_node_references g) (map (fun n => (n, nf n)) (sq_nodes h v)).
  Proof using SZ.
    intros g nf ef R. pose proof sizes as HS. destruct (counts _ _ _ R) as (C1 & C2 & _).
    unfold sg_node_references, sg_node_identifiers. rewrite C1, C2.
    eexists. cbn [nr_indices nr_nodes]. split; [apply ni_start|].
    rewrite (rep_cells _ _ _ R). destruct (Z.leb_spec 1 v); auto.
    assert (v = 0) by lia.
    assert (E0 : sq_nodes h v = []).
    { destruct (sq_nodes h v) eqn:En; auto. pose proof sq_nodes_length. rewrite En in *. cbn [length] in *. lia. }
    rewrite E0. auto.
  Qed.

  Lemma nr_size_hint : forall nf it l, nr_pos nf it l ->
    sg_node_references_size_hint it = (Z.of_nat (length l), Some (Z.of_nat (length l))).
  Proof.
    intros nf it l (ln & _ & H2 & ->). unfold sg_node_references_size_hint. rewrite H2.
    destruct (1 <=? v); rewrite ?map_length; reflexivity.
  Qed.

  (** ** Neighbours *)

  Lemma ni_left_ok : forall x y, 1 <= x < h -> ni_left ix m (x, y) = Ok (x - 1, y).
  Proof using SZ FX.
    intros x y Hx. pose proof sizes. unfold ni_left. cbn [fst snd].
    rewrite usize_sub_ok by (rewrite USIZE_pow; lia). cbn [bind]. rewrite ix_x by lia. reflexivity.
  Qed.
  Lemma ni_right_ok : forall x y, 0 <= x -> x + 1 < h -> ni_right ix m (x, y) = Ok (x + 1, y).
  Proof using SZ FX.
    intros x y Hx Hx'. pose proof sizes. unfold ni_right. cbn [fst snd].
    rewrite usize_add_ok by (rewrite USIZE_pow; lia). cbn [bind]. rewrite ix_x by lia. reflexivity.
  Qed.
  Lemma ni_down_ok : forall x y, 1 <= y < v -> ni_down ix m (x, y) = Ok (x, y - 1).
  Proof using SZ FX.
    intros x y Hx. pose proof sizes. unfold ni_down. cbn [fst snd].
    rewrite usize_sub_ok by (rewrite USIZE_pow; lia). cbn [bind]. rewrite ix_y by lia. reflexivity.
  Qed.
  Lemma ni_up_ok : forall x y, 0 <= y -> y + 1 < v -> ni_up ix m (x, y) = Ok (x, y + 1).
  Proof using SZ FX.
    intros x y Hx Hx'. pose proof sizes. unfold ni_up. cbn [fst snd].
    rewrite usize_add_ok by (rewrite USIZE_pow; lia). cbn [bind]. rewrite ix_y by lia. reflexivity.
  Qed.

  Definition dir_at (k : Z) : SquareDirection :=
    if k =? 0 then Backward Horizontal else if k =? 1 then Foward Horizontal
    else if k =? 2 then Backward Vertical else Foward Vertical.

  Lemma neighbor_at_ok : forall x y k, 0 <= x < h -> 0 <= y < v -> 0 <= k < 4 ->
    neighbor_at (ix := ix) (S := S) m (mkNB (x, y) k h v) = Ok (sq_neighbour S h v (x, y) (dir_at k)).
  Proof using SZ FX.
    intros x y k Hx Hy Hk. pose proof sizes as HS. unfold neighbor_at, dir_at.
    cbn [nb_node nb_state nb_h nb_v fst snd].
    assert (k = 0 \/ k = 1 \/ k = 2 \/ k = 3) as [-> | [-> | [-> | ->]]] by lia.
    - rewrite Z.eqb_refl, sq_neighbour_bwd_h by auto. rewrite loops_h_eq.
      destruct (Z.eqb_spec x 0) as [->|Hn]; cbn [negb].
      + rewrite andb_true_r. destruct (loops_h S); auto.
        rewrite usize_sub_ok by (rewrite USIZE_pow; lia). cbn [bind]. rewrite ix_x by lia. reflexivity.
      + rewrite ni_left_ok by lia. reflexivity.
    - change (1 =? 0) with false. rewrite Z.eqb_refl, sq_neighbour_fwd_h by auto. rewrite loops_h_eq.
      rewrite usize_add_ok by (rewrite USIZE_pow; lia). cbn [bind].
      destruct (Z.ltb_spec (x + 1) h).
      + rewrite ni_right_ok by lia. reflexivity.
      + replace (x + 1 =? h) with true by lia. rewrite andb_true_r, ix_new_0. destruct (loops_h S); auto.
    - change (2 =? 0) with false. change (2 =? 1) with false. rewrite Z.eqb_refl, sq_neighbour_bwd_v by auto.
      rewrite loops_v_eq. destruct (Z.eqb_spec y 0) as [->|Hn]; cbn [negb].
      + rewrite andb_true_r. destruct (loops_v S); auto.
        rewrite usize_sub_ok by (rewrite USIZE_pow; lia). cbn [bind]. rewrite ix_y by lia. reflexivity.
      + rewrite ni_down_ok by lia. reflexivity.
    - change (3 =? 0) with false. change (3 =? 1) with false. change (3 =? 2) with false.
      rewrite sq_neighbour_fwd_v by auto. rewrite loops_v_eq.
      rewrite usize_add_ok by (rewrite USIZE_pow; lia). cbn [bind].
      destruct (Z.ltb_spec (y + 1) v).
      + rewrite ni_up_ok by lia. reflexivity.
      + replace (y + 1 =? v) with true by lia. rewrite andb_true_r, ix_new_0. destruct (loops_v S); auto.
  Qed.

  Definition nb_scan (n : NodeIndex) : SqNeighbors -> list NodeIndex -> Prop :=
    scan_pos (fun k => mkNB n k h v) (fun k => sq_neighbour S h v n (dir_at k)).

  Lemma sq_neighbors_inv : forall n, on_board h v n ->
    IterInv (sg_neighbors_next (ix := ix) (S := S) m) (nb_scan n).
  Proof using SZ FX.
    intros [x y] [Hx Hy]. cbn [fst snd] in *. apply scan_inv.
    - intros k Hk. cbn [nb_state]. replace (4 <=? k) with false by lia.
      rewrite neighbor_at_ok by auto. cbn [bind nb_state nb_node nb_h nb_v].
      rewrite usize_add_ok by (rewrite USIZE_pow; lia). cbn [bind].
      destruct (sq_neighbour S h v (x, y) (dir_at k)); reflexivity.
    - reflexivity.
  Qed.

  Lemma sq_neighbors_start : forall (g : graph) nf ef n, SqRep h v g nf ef ->
    nb_scan n (sg_neighbors g n) (sq_neighbours S h v n).
  Proof.
    intros g nf ef n R. destruct (counts _ _ _ R) as (C1 & C2 & _).
    unfold sg_neighbors. rewrite C1, C2. exact (scan_start _ _).
  Qed.

  (** ** Edges *)

  Definition info : SizeInfo := get_sizeinfo S h v.

  Definition ref_at (ef : EdgeIndex -> E) (n : NodeIndex) (d : SquareDirection) : option (SqEdgeReference E) :=
    match sq_neighbour S h v n d with
    | Some t => Some (mkSqRef (sq_edge_name n d t) (ef (sq_edge_name n d t))
                        (match d with Foward _ => true | Backward _ => false end) info)
    | None => None
    end.

  Lemma uget_h : forall (g : graph) nf ef x y, SqRep h v g nf ef ->
    0 <= x < edge_columns S h -> 0 <= y < v ->
    array_uget m (sg_horizontal g) x y = Ok (ef ((x, y), Horizontal)).
  Proof. intros. apply array_uget_ok. apply (sq_h_get _ _ _ _ _ H); auto. Qed.
  Lemma uget_v : forall (g : graph) nf ef x y, SqRep h v g nf ef ->
    0 <= x < h -> 0 <= y < edge_rows S v ->
    array_uget m (sg_vertical g) x y = Ok (ef ((x, y), Vertical)).
  Proof. intros. apply array_uget_ok. apply (sq_v_get _ _ _ _ _ H); auto. Qed.

  Lemma debug_assert_true : forall m, debug_assert m true = Ok tt.
  Proof. destruct m0; reflexivity. Qed.

  Lemma edge_at_ok : forall (g : graph) nf ef x y k, SqRep h v g nf ef ->
    0 <= x < h -> 0 <= y < v -> 0 <= k < 4 ->
    edge_at m g (mkSE (x, y) k) = Ok (ref_at ef (x, y) (dir_at k)).
  Proof using SZ FX.
    intros g nf ef x y k R Hx Hy Hk. pose proof sizes as HS. destruct (counts _ _ _ R) as (C1 & C2 & _).
    unfold edge_at, dir_at, ref_at. rewrite C1, C2. fold info.
    cbn [se_node se_state fst snd]. rewrite loops_h_eq, loops_v_eq.
    assert (HC : edge_columns S h = if loops_h S then h else h - 1) by reflexivity.
    assert (HR : edge_rows S v = if loops_v S then v else v - 1) by reflexivity.
    assert (k = 0 \/ k = 1 \/ k = 2 \/ k = 3) as [-> | [-> | [-> | ->]]] by lia.
    - rewrite Z.eqb_refl, sq_neighbour_bwd_h by auto.
      destruct (Z.eqb_spec x 0) as [->|Hn].
      + destruct (loops_h S) eqn:EL; cbn [negb andb]; [|reflexivity].
        rewrite usize_sub_ok by (rewrite USIZE_pow; lia). cbn [bind fst snd]. rewrite ix_x by lia.
        rewrite (uget_h _ _ _ _ _ R) by lia. reflexivity.
      + cbn [andb]. rewrite ni_left_ok by lia. cbn [bind fst snd].
        rewrite (uget_h _ _ _ _ _ R) by (rewrite ?HC; destruct (loops_h S); lia). reflexivity.
    - change (1 =? 0) with false. rewrite Z.eqb_refl, sq_neighbour_fwd_h by auto.
      replace (x <? h) with true by lia. rewrite debug_assert_true. cbn [bind].
      destruct (loops_h S) eqn:EL; cbn [bind].
      + rewrite (uget_h _ _ _ _ _ R) by lia. destruct (Z.ltb_spec (x + 1) h); reflexivity.
      + rewrite usize_add_ok by (rewrite USIZE_pow; lia). cbn [bind].
        destruct (Z.eqb_spec (x + 1) h).
        * replace (x + 1 <? h) with false by lia. reflexivity.
        * replace (x + 1 <? h) with true by lia. rewrite (uget_h _ _ _ _ _ R) by lia. reflexivity.
    - change (2 =? 0) with false. change (2 =? 1) with false. rewrite Z.eqb_refl, sq_neighbour_bwd_v by auto.
      destruct (Z.eqb_spec y 0) as [->|Hn].
      + destruct (loops_v S) eqn:EL; cbn [negb andb]; [|reflexivity].
        rewrite usize_sub_ok by (rewrite USIZE_pow; lia). cbn [bind fst snd]. rewrite ix_y by lia.
        rewrite (uget_v _ _ _ _ _ R) by lia. reflexivity.
      + cbn [andb]. rewrite ni_down_ok by lia. cbn [bind fst snd].
        rewrite (uget_v _ _ _ _ _ R) by (rewrite ?HR; destruct (loops_v S); lia). reflexivity.
    - change (3 =? 0) with false. change (3 =? 1) with false. change (3 =? 2) with false.
      rewrite sq_neighbour_fwd_v by auto.
      replace (y <? v) with true by lia. rewrite debug_assert_true. cbn [bind].
      destruct (loops_v S) eqn:EL; cbn [bind].
      + rewrite (uget_v _ _ _ _ _ R) by lia. destruct (Z.ltb_spec (y + 1) v); reflexivity.
      + rewrite usize_add_ok by (rewrite USIZE_pow; lia). cbn [bind].
        destruct (Z.eqb_spec (y + 1) v).
        * replace (y + 1 <? v) with false by lia. reflexivity.
        * replace (y + 1 <? v) with true by lia. rewrite (uget_v _ _ _ _ _ R) by lia. reflexivity.
  Qed.

  Definition se_scan (ef : EdgeIndex -> E) (n : NodeIndex) : SqEdges -> list (SqEdgeReference E) -> Prop :=
    scan_pos (fun k => mkSE n k) (fun k => ref_at ef n (dir_at k)).

  Lemma sq_edges_inv : forall (g : graph) nf ef n, SqRep h v g nf ef -> on_board h v n ->
    IterInv (sg_edges_next m g) (se_scan ef n).
  Proof using SZ FX.
    intros g nf ef [x y] R [Hx Hy]. cbn [fst snd] in *. apply scan_inv.
    - intros k Hk. cbn [se_state]. replace (4 <=? k) with false by lia.
      rewrite (edge_at_ok g nf ef) by auto. cbn [bind se_state se_node].
      rewrite usize_add_ok by (rewrite USIZE_pow; lia). cbn [bind].
      destruct (ref_at ef (x, y) (dir_at k)); reflexivity.
    - reflexivity.
  Qed.

  (** The end points of a reference: [get_node false] is one step forward. *)
  Lemma get_node_forward : forall x y a w fo, 0 <= x < h -> 0 <= y < v ->
    forall t, sq_neighbour S h v (x, y) (Foward a) = Some t ->
    sr_get_node (E := E) (ix := ix) (S := S) m (mkSqRef ((x, y), a) w fo info) false = Ok t.
  Proof using SZ FX.
    intros x y a w fo Hx Hy t Ht. pose proof sizes as HS.
    unfold sr_get_node. cbn [sr_id sr_s fst snd]. rewrite loops_h_eq, loops_v_eq. destruct a.
    - rewrite sq_neighbour_fwd_h in Ht by auto. unfold horizontal_size, info.
      destruct (loops_h S) eqn:EL.
      + rewrite usize_add_ok by (rewrite USIZE_pow; lia). cbn [bind].
        assert (Ei : fst (get_sizeinfo S h v) = Some h) by (destruct S; try discriminate; reflexivity).
        rewrite Ei. cbn [bind]. destruct (Z.eqb_spec (x + 1) h).
        * replace (x + 1 <? h) with false in Ht by lia. rewrite ix_new_0. injection Ht as <-. reflexivity.
        * replace (x + 1 <? h) with true in Ht by lia. rewrite ni_right_ok by lia. injection Ht as <-. reflexivity.
      + cbn [bind]. destruct (Z.ltb_spec (x + 1) h); [|discriminate]. rewrite ni_right_ok by lia. injection Ht as <-. reflexivity.
    - rewrite sq_neighbour_fwd_v in Ht by auto. unfold vertical_size, info.
      destruct (loops_v S) eqn:EL.
      + rewrite usize_add_ok by (rewrite USIZE_pow; lia). cbn [bind].
        assert (Ei : snd (get_sizeinfo S h v) = Some v) by (destruct S; try discriminate; reflexivity).
        rewrite Ei. cbn [bind]. destruct (Z.eqb_spec (y + 1) v).
        * replace (y + 1 <? v) with false in Ht by lia. rewrite ix_new_0. injection Ht as <-. reflexivity.
        * replace (y + 1 <? v) with true in Ht by lia. rewrite ni_up_ok by lia. injection Ht as <-. reflexivity.
      + cbn [bind]. destruct (Z.ltb_spec (y + 1) v); [|discriminate]. rewrite ni_up_ok by lia. injection Ht as <-. reflexivity.
  Qed.

  (** Going back from the neighbour. *)
  Lemma neighbour_back : forall n a t, on_board h v n ->
    (sq_neighbour S h v n (Backward a) = Some t -> sq_neighbour S h v t (Foward a) = Some n) /\
    (sq_neighbour S h v n (Foward a) = Some t -> sq_neighbour S h v t (Backward a) = Some n).
  Proof.
    intros [x y] a t [Hx Hy]. cbn [fst snd] in *.
    assert (HT : forall d, sq_neighbour S h v (x, y) d = Some t -> on_board h v t)
      by (intros d; apply neighbour_on_board; split; auto).
    split; intros H; pose proof (HT _ H) as HB; destruct t as [x' y'], HB as [HB1 HB2];
      cbn [fst snd] in HB1, HB2; destruct a;
      rewrite ?sq_neighbour_fwd_h, ?sq_neighbour_fwd_v, ?sq_neighbour_bwd_h, ?sq_neighbour_bwd_v in * by auto.
    - destruct (Z.eqb_spec x 0); [destruct (loops_h S); [|discriminate]|]; injection H as <- <-.
      + replace (h - 1 + 1 <? h) with false by lia. subst. reflexivity.
      + replace (x - 1 + 1) with x by lia. replace (x <? h) with true by lia. reflexivity.
    - destruct (Z.eqb_spec y 0); [destruct (loops_v S); [|discriminate]|]; injection H as <- <-.
      + replace (v - 1 + 1 <? v) with false by lia. subst. reflexivity.
      + replace (y - 1 + 1) with y by lia. replace (y <? v) with true by lia. reflexivity.
    - destruct (Z.ltb_spec (x + 1) h); [|destruct (loops_h S); [|discriminate]]; injection H as <- <-.
      + replace (x + 1 =? 0) with false by lia. replace (x + 1 - 1) with x by lia. reflexivity.
      + rewrite Z.eqb_refl. replace (h - 1) with x by lia. reflexivity.
    - destruct (Z.ltb_spec (y + 1) v); [|destruct (loops_v S); [|discriminate]]; injection H as <- <-.
      + replace (y + 1 =? 0) with false by lia. replace (y + 1 - 1) with y by lia. reflexivity.
      + rewrite Z.eqb_refl. replace (v - 1) with y by lia. reflexivity.
  Qed.

  Lemma view_ref : forall ef n d, on_board h v n ->
    map (sq_view ix S m) (opt_list (ref_at ef n d)) = map Ok (opt_list (sq_edge_view S h v ef n d)).
  Proof using SZ FX.
    intros ef n d Hn. unfold ref_at, sq_edge_view.
    destruct (sq_neighbour S h v n d) as [t|] eqn:Et; [|reflexivity]. cbn [opt_list map]. f_equal.
    pose proof (neighbour_on_board _ _ _ _ _ Hn Et) as Ht.
    unfold sq_view, sr_source, sr_target. cbn [sr_direction sr_id sr_weight]. destruct d as [a|a].
    - cbn [negb sq_edge_name]. destruct n as [x y], Hn as [Hx Hy].
      cbn [fst snd] in *. rewrite (get_node_forward x y a _ _ Hx Hy t Et). reflexivity.
    - cbn [negb sq_edge_name]. apply (proj1 (neighbour_back n a t Hn)) in Et.
      destruct t as [x y], Ht as [Hx Hy]. cbn [fst snd] in *.
      rewrite (get_node_forward x y a _ _ Hx Hy n Et). reflexivity.
  Qed.

  Lemma map_flat_map' : forall X Y Z (f : Y -> Z) (g : X -> list Y) l,
    map f (flat_map g l) = flat_map (fun x => map f (g x)) l.
  Proof. induction l; simpl; auto. rewrite map_app, IHl. reflexivity. Qed.

  Lemma view_edges : forall ef n, on_board h v n ->
    map (sq_view ix S m) (flat_map (fun j => opt_list (ref_at ef n (dir_at j))) [0; 1; 2; 3])
    = map Ok (sq_edges_of S h v ef n).
  Proof using SZ FX.
    intros ef n Hn. unfold sq_edges_of, sq_directions. cbn [flat_map]. rewrite !map_app.
    change (dir_at 0) with (Backward Horizontal). change (dir_at 1) with (Foward Horizontal).
    change (dir_at 2) with (Backward Vertical). change (dir_at 3) with (Foward Vertical).
    rewrite !view_ref by auto. unfold opt_list. reflexivity.
  Qed.

  (** ** All edges *)

  Definition h_slot (g : graph) (n : NodeIndex) : list (SqEdgeReference E) :=
    match array_get (sg_horizontal g) (fst n) (snd n) with
    | Some w => [mkSqRef (n, Horizontal) w true info] | None => [] end.
  Definition v_slot (g : graph) (n : NodeIndex) : list (SqEdgeReference E) :=
    match array_get (sg_vertical g) (fst n) (snd n) with
    | Some w => [mkSqRef (n, Vertical) w true info] | None => [] end.

  Definition er_pos (g : graph) (it : SqEdgeReferences) (l : list (SqEdgeReference E)) : Prop :=
    exists ln, ni_pos (er_nodes it) ln /\
      l = match er_prv it with Some x => v_slot g x | None => [] end
          ++ flat_map (fun n => h_slot g n ++ v_slot g n) ln.

  Definition er_body (g : graph) (s : SizeInfo) (it : SqEdgeReferences)
    : outcome (SqEdgeReferences + (option (SqEdgeReference E) * SqEdgeReferences)) :=
    match er_prv it with
    | None =>
        let! (x, nodes) := sg_node_indices_next (ix := ix) m (er_nodes it) in
        match x with
        | None => Ok (inr (None, mkER nodes (er_prv it)))
        | Some x =>
            let it' := mkER nodes (Some x) in
            match array_get (sg_horizontal g) (fst x) (snd x) with
            | Some ew => Ok (inr (Some (mkSqRef (x, Horizontal) ew true s), it'))
            | None => Ok (inl it')
            end
        end
    | Some x =>
        let it' := mkER (er_nodes it) None in
        match array_get (sg_vertical g) (fst x) (snd x) with
        | Some ew => Ok (inr (Some (mkSqRef (x, Vertical) ew true s), it'))
        | None => Ok (inl it')
        end
    end.

  Definition prv_count (p : option NodeIndex) : nat := match p with Some _ => 1 | None => 0 end.

  Lemma er_rounds : forall (g : graph) ln nodes, ni_pos nodes ln -> forall prv l,
    l = match prv with Some x => v_slot g x | None => [] end
        ++ flat_map (fun n => h_slot g n ++ v_slot g n) ln ->
    match l with
    | [] => exists n nodes', (n <= 2 * length ln + prv_count prv)%nat /\
        Rounds (er_body g info) n (mkER nodes prv) (Ok (None, mkER nodes' None)) /\
        sg_node_indices_next (ix := ix) m nodes' = Ok (None, nodes')
    | x :: l' => exists n it', (n <= 2 * length ln + prv_count prv)%nat /\
        Rounds (er_body g info) n (mkER nodes prv) (Ok (Some x, it')) /\ er_pos g it' l'
    end.
  Proof using SZ FX.
    intros g. induction ln as [|c ln IH]; intros nodes HN.
    - (* no node is left *)
      assert (H0 : forall l : list (SqEdgeReference E), l = [] -> exists n nodes', (n <= 0)%nat /\
        Rounds (er_body g info) n (mkER nodes None) (Ok (None, mkER nodes' None)) /\
        sg_node_indices_next (ix := ix) m nodes' = Ok (None, nodes')).
      { intros l ->. destruct (ni_inv _ _ HN) as (it' & E1 & E2). exists O, it'. split; auto.
        split; auto. constructor. unfold er_body. cbn [er_prv er_nodes]. rewrite E1. reflexivity. }
      intros [x|] l Hl; cbn [flat_map] in Hl; rewrite app_nil_r in Hl || cbn in Hl.
      + unfold v_slot in Hl. destruct (array_get (sg_vertical g) (fst x) (snd x)) as [w|] eqn:Ew.
        * subst l. exists O, (mkER nodes None). split; [lia|]. split.
          { constructor. unfold er_body. cbn [er_prv er_nodes]. rewrite Ew. reflexivity. }
          exists []. split; auto.
        * subst l. destruct (H0 [] eq_refl) as (n & nodes' & L & R & Z). exists (Datatypes.S n), nodes'.
          split; [cbn; lia|]. split; auto. econstructor; [|exact R].
          unfold er_body. cbn [er_prv er_nodes]. rewrite Ew. reflexivity.
      + subst l. destruct (H0 [] eq_refl) as (n & nodes' & L & R & Z). exists n, nodes'. split; [cbn; lia|]. auto.
    - destruct (ni_inv _ _ HN) as (nodes1 & E1 & HN1).
      (* the round that fetches the next node *)
      assert (H0 : forall l, l = flat_map (fun n => h_slot g n ++ v_slot g n) (c :: ln) ->
        match l with
        | [] => exists n nodes', (n <= 2 * length ln + 2)%nat /\
            Rounds (er_body g info) n (mkER nodes None) (Ok (None, mkER nodes' None)) /\
            sg_node_indices_next (ix := ix) m nodes' = Ok (None, nodes')
        | x :: l' => exists n it', (n <= 2 * length ln + 2)%nat /\
            Rounds (er_body g info) n (mkER nodes None) (Ok (Some x, it')) /\ er_pos g it' l'
        end).
      { intros l Hl. cbn [flat_map] in Hl. unfold h_slot in Hl at 1.
        destruct (array_get (sg_horizontal g) (fst c) (snd c)) as [w|] eqn:Ew.
        - rewrite <- app_assoc in Hl. cbn [app] in Hl. subst l. exists O, (mkER nodes1 (Some c)).
          split; [lia|]. split.
          { constructor. unfold er_body. cbn [er_prv er_nodes]. rewrite E1. cbn [bind]. rewrite Ew. reflexivity. }
          exists ln. cbn [er_prv er_nodes]. split; auto.
        - cbn [app] in Hl. specialize (IH nodes1 HN1 (Some c) l Hl).
          assert (HB : er_body g info (mkER nodes None) = Ok (inl (mkER nodes1 (Some c)))).
          { unfold er_body. cbn [er_prv er_nodes]. rewrite E1. cbn [bind]. rewrite Ew. reflexivity. }
          cbn [prv_count] in IH. destruct l as [|x l].
          + destruct IH as (n & nodes' & L & R & Z). exists (Datatypes.S n), nodes'. split; [lia|]. split; auto.
            econstructor; eauto.
          + destruct IH as (n & it' & L & R & Z). exists (Datatypes.S n), it'. split; [lia|]. split; auto.
            econstructor; eauto. }
      intros [x|] l Hl.
      + unfold v_slot in Hl at 1. destruct (array_get (sg_vertical g) (fst x) (snd x)) as [w|] eqn:Ew.
        * cbn [app] in Hl. subst l. exists O, (mkER nodes None). split; [lia|]. split.
          { constructor. unfold er_body. cbn [er_prv er_nodes]. rewrite Ew. reflexivity. }
          exists (c :: ln). split; auto.
        * cbn [app] in Hl. specialize (H0 l Hl).
          assert (HB : er_body g info (mkER nodes (Some x)) = Ok (inl (mkER nodes None))).
          { unfold er_body. cbn [er_prv er_nodes]. rewrite Ew. reflexivity. }
          cbn [prv_count length]. destruct l as [|y l].
          -- destruct H0 as (n & nodes' & L & R & Z). exists (Datatypes.S n), nodes'. split; [lia|].
             split; auto. econstructor; eauto.
          -- destruct H0 as (n & it' & L & R & Z). exists (Datatypes.S n), it'. split; [lia|]. split; auto.
             econstructor; eauto.
      + cbn [app] in Hl. specialize (H0 l Hl). cbn [prv_count length]. destruct l as [|y l].
        * destruct H0 as (n & nodes' & L & R & Z). exists n, nodes'. split; [lia|]. auto.
        * destruct H0 as (n & it' & L & R & Z). exists n, it'. split; [lia|]. auto.
  Qed.

  Lemma er_next_body : forall (g : graph) it, ni_h_max (er_nodes it) = h -> ni_v_max (er_nodes it) = v ->
    sg_edge_references_next m g it = loop (er_body g info) it.
  Proof. intros g it H1 H2. unfold sg_edge_references_next. rewrite H1, H2. reflexivity. Qed.

  Lemma er_inv : forall g : graph, IterInv (sg_edge_references_next m g) (er_pos g).
  Proof using SZ FX.
    intros g [nodes prv] l (ln & H1 & H2). cbn [er_nodes er_prv] in *.
    pose proof (ni_len _ _ H1) as HL. pose proof H1 as (M1 & M2 & _).
    pose proof (er_rounds g ln nodes H1 prv l H2) as H.
    assert (HP : (prv_count prv <= 1)%nat) by (destruct prv; cbn; lia).
    rewrite er_next_body by auto. destruct l as [|x l].
    - destruct H as (n & nodes' & L & R & Z). exists (mkER nodes' None).
      split; [eapply loop_rounds; [exact R|lia]|].
      unfold sg_edge_references_next. apply (loop_rounds _ 0); [|lia]. constructor.
      cbn [er_prv er_nodes]. rewrite Z. reflexivity.
    - destruct H as (n & it' & L & R & Z). exists it'. split; auto. eapply loop_rounds; [exact R|lia].
  Qed.

  Lemma h_slot_ref : forall (g : graph) nf ef n, SqRep h v g nf ef -> on_board h v n ->
    h_slot g n = opt_list (ref_at ef n (Foward Horizontal)).
  Proof.
    intros g nf ef [x y] R [Hx Hy]. cbn [fst snd] in *. unfold h_slot, ref_at. cbn [fst snd].
    pose proof (rep_edge h v g nf ef ((x, y), Horizontal) R) as H1.
    pose proof (rep_edge_out h v g nf ef ((x, y), Horizontal) R) as H2.
    unfold sg_edge_weight in H1, H2. cbn [fst snd] in H1, H2.
    unfold sq_edge_exists in H1, H2. cbn [fst snd] in H1, H2.
    destruct (sq_neighbour S h v (x, y) (Foward Horizontal)) as [t|] eqn:Et.
    - rewrite H1; [reflexivity|]. split; [split; auto|discriminate].
    - rewrite H2; [reflexivity|]. intros [_ H]. congruence.
  Qed.

  Lemma v_slot_ref : forall (g : graph) nf ef n, SqRep h v g nf ef -> on_board h v n ->
    v_slot g n = opt_list (ref_at ef n (Foward Vertical)).
  Proof.
    intros g nf ef [x y] R [Hx Hy]. cbn [fst snd] in *. unfold v_slot, ref_at. cbn [fst snd].
    pose proof (rep_edge h v g nf ef ((x, y), Vertical) R) as H1.
    pose proof (rep_edge_out h v g nf ef ((x, y), Vertical) R) as H2.
    unfold sg_edge_weight in H1, H2. cbn [fst snd] in H1, H2.
    unfold sq_edge_exists in H1, H2. cbn [fst snd] in H1, H2.
    destruct (sq_neighbour S h v (x, y) (Foward Vertical)) as [t|] eqn:Et.
    - rewrite H1; [reflexivity|]. split; [split; auto|discriminate].
    - rewrite H2; [reflexivity|]. intros [_ H]. congruence.
  Qed.

  Lemma sq_edge_references_ok : forall (g : graph) nf ef, SqRep h v g nf ef ->
    exists l, Drains (sg_edge_references_next m g) (sg_edge_references g) l /\
      map (sq_view ix S m) l = map Ok (sq_all_edges S h v ef).
  Proof using SZ FX.
    intros g nf ef R. pose proof sizes as HS. destruct (counts _ _ _ R) as (C1 & C2 & _).
    unfold sg_edge_references. rewrite C1, C2.
    set (ln := if 1 <=? v then sq_nodes h v else map (fun k => (1 + k, 0)) (zrange (h - 1))).
    exists (flat_map (fun n => h_slot g n ++ v_slot g n) ln). split.
    - eapply IterInv_drains; [apply er_inv|]. exists ln. split; [apply ni_start|reflexivity].
    - unfold ln. destruct (Z.leb_spec 1 v) as [Hv|Hv].
      + unfold sq_all_edges. rewrite !map_flat_map'. apply flat_map_ext_in. intros n Hn.
        apply sq_in_nodes in Hn. rewrite (h_slot_ref g nf ef) by auto. rewrite (v_slot_ref g nf ef) by auto.
        rewrite map_app, !view_ref by auto. cbn [flat_map]. rewrite app_nil_r, map_app. reflexivity.
      + assert (v = 0) by lia.
        assert (E0 : sq_nodes h v = []).
        { destruct (sq_nodes h v) eqn:En; auto. pose proof sq_nodes_length. rewrite En in *. cbn [length] in *. lia. }
        unfold sq_all_edges. rewrite E0. cbn [flat_map map].
        rewrite (flat_map_ext_in _ _ _ (fun _ => [])).
        * induction (map _ (zrange (h - 1))); auto.
        * intros n _. pose proof R as [_ W2 W3 _ _ _]. unfold h_slot, v_slot.
          rewrite (array_get_out _ _ _ _ (fst n) (snd n) W2) by lia.
          rewrite (array_get_out _ _ _ _ (fst n) (snd n) W3); [reflexivity|].
          unfold edge_rows. destruct (loops_v S); lia.
  Qed.
End Iter.
