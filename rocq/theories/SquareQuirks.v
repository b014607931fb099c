(** * SquareQuirks: what [SquareGraph] does outside its board, on looped boards and with
    index types that are too small. *)

From Coq Require Import ZifyBool ZifyNat.
From Verif Require Import Machine Store Spec Basics RepProofs IterProofs SquareGraph SpecSquare SquareProofs SquareIter SquareMain SquareSearch.
Ltac Zify.zify_post_hook ::= Z.div_mod_to_equations.

(** ** Iterators that break *)

Section Break.
  Context {St X : Type} (body : St -> outcome (St + (option X * St))) (mk : Z -> St)
    (f : Z -> option X) (kf : Z) (fl : fault).
  Hypothesis Hbody : forall k, 0 <= k < kf ->
    body (mk k) = Ok (match f k with Some x => inr (Some x, mk (k + 1)) | None => inl (mk (k + 1)) end).
  Hypothesis Hfail : body (mk kf) = Fail fl.

  Lemma break_rounds : forall n k, 0 <= k <= kf -> n = Z.to_nat (kf - k) ->
    (exists n', (n' <= n)%nat /\ Rounds body n' (mk k) (Fail fl)) \/
    (exists n' x j, (n' <= n)%nat /\ k < j <= kf /\ Rounds body n' (mk k) (Ok (Some x, mk j))).
  Proof.
    induction n as [|n IH]; intros k Hk Hn.
    - left. exists O. split; auto. assert (k = kf) as -> by lia. constructor. auto.
    - pose proof (Hbody k ltac:(lia)) as Hb. destruct (f k) as [x|].
      + right. exists O, x, (k + 1). split; [lia|]. split; [lia|]. constructor. auto.
      + destruct (IH (k + 1)) as [(n' & H1 & H2)|(n' & x & j & H1 & H2 & H3)]; try lia.
        * left. exists (S n'). split; [lia|]. econstructor; eauto.
        * right. exists (S n'), x, j. split; [lia|]. split; [lia|]. econstructor; eauto.
  Qed.

  Lemma break_scan : kf < 2 ^ 64 -> forall n k, 0 <= k <= kf -> (Z.to_nat (kf - k) <= n)%nat ->
    Breaks (loop body) (mk k) fl.
  Proof.
    intros HF. induction n as [|n IH]; intros k Hk Hn.
    all: destruct (break_rounds _ k Hk eq_refl) as [(n' & H1 & H2)|(n' & x & j & H1 & H2 & H3)].
    1, 3: exists [], (mk k); split; [constructor|]; eapply loop_rounds; [exact H2|lia].
    - lia.
    - destruct (IH j ltac:(lia) ltac:(lia)) as (l & it' & HC & HF').
      exists (x :: l), it'. split; auto. econstructor; [|exact HC].
      eapply loop_rounds; [exact H3|lia].
  Qed.
End Break.

Lemma uget_out : forall X m (a : Array2 X) x y, array_get a x y = None ->
  array_uget m a x y = Fail (out_of_bounds m).
Proof. intros X m a x y H. unfold array_uget. rewrite H. destruct m; reflexivity. Qed.

Lemma assert_false : forall X m (k : outcome X), k = Fail (out_of_bounds m) ->
  (let! _ := debug_assert m false in k) = Fail (out_of_bounds m).
Proof. intros X m k H. destruct m; [reflexivity|exact H]. Qed.

Lemma sub_wrap : forall X m (k : Z -> outcome X), k (2 ^ 64 - 1) = Fail (out_of_bounds m) ->
  (let! z := usize_sub m 0 1 in k z) = Fail (out_of_bounds m).
Proof. intros X m k H. destruct m; [reflexivity|exact H]. Qed.

Section Edges.
  Context {N E : Type} {ix : IxType} {S : LoopShape}.
  Notation graph := (SquareGraph N E ix S).

  Lemma edges_break : forall m (g : graph) n kf fl, 0 <= kf < 4 ->
    (forall k, 0 <= k < kf -> exists o, edge_at m g (mkSE n k) = Ok o) ->
    edge_at m g (mkSE n kf) = Fail fl ->
    Breaks (sg_edges_next m g) (sg_edges g n) fl.
  Proof.
    intros m g n kf fl Hk Hok Hf. unfold sg_edges, sg_edges_next.
    apply (break_scan _ (fun k => mkSE n k)
      (fun k => match edge_at m g (mkSE n k) with Ok o => o | Fail _ => None end) kf fl) with (n := Z.to_nat kf);
      try lia.
    - intros k Hk'. cbn [se_state]. replace (4 <=? k) with false by lia.
      destruct (Hok k Hk') as [o ->]. cbn [bind se_state se_node].
      rewrite usize_add_ok by (rewrite USIZE_pow; lia). cbn [bind]. destruct o; reflexivity.
    - cbn [se_state]. replace (4 <=? kf) with false by lia. rewrite Hf. reflexivity.
  Qed.

  (** Every state either succeeds or goes out of bounds; so it is enough that one of them
      goes out of bounds. *)
  Lemma edges_break' : forall m (g : graph) n kf fl, 0 <= kf < 4 ->
    (forall k, 0 <= k < kf -> (exists o, edge_at m g (mkSE n k) = Ok o) \/ edge_at m g (mkSE n k) = Fail fl) ->
    edge_at m g (mkSE n kf) = Fail fl ->
    Breaks (sg_edges_next m g) (sg_edges g n) fl.
  Proof.
    intros m g n kf fl Hk Hok Hf.
    assert (Hleast : exists k0, 0 <= k0 <= kf /\ edge_at m g (mkSE n k0) = Fail fl /\
      forall k, 0 <= k < k0 -> exists o, edge_at m g (mkSE n k) = Ok o).
    { assert (Hgen : forall j, 0 <= j -> j <= kf ->
        (forall k, 0 <= k < j -> exists o, edge_at m g (mkSE n k) = Ok o) \/
        exists k0, 0 <= k0 < j /\ edge_at m g (mkSE n k0) = Fail fl /\
          forall k, 0 <= k < k0 -> exists o, edge_at m g (mkSE n k) = Ok o).
      { intros j0 Hj0. pattern j0. revert j0 Hj0. apply natlike_ind.
        - intros _. left. intros; lia.
        - intros j Hj IH Hle. destruct IH as [IH|(k0 & H1 & H2 & H3)]; [lia| |].
          + destruct (Hok j ltac:(lia)) as [Ho|Ho].
            * left. intros k Hk'. destruct (Z.eq_dec k j) as [->|]; auto. apply IH. lia.
            * right. exists j. split; [lia|]. auto.
          + right. exists k0. split; [lia|]. auto. }
      destruct (Hgen kf ltac:(lia) ltac:(lia)) as [H|(k0 & H1 & H2 & H3)].
      - exists kf. split; [lia|]. auto.
      - exists k0. split; [lia|]. auto. }
    destruct Hleast as (k0 & H1 & H2 & H3). apply (edges_break m g n k0 fl); auto. lia.
  Qed.
End Edges.

Lemma ix_pred : forall ix x, 1 <= x < ix_size ix -> ix_new ix (x - 1) = x - 1.
Proof. intros. apply ix_new_small. lia. Qed.

Section Off.
  Context {N E : Type} {ix : IxType} {S : LoopShape} {m : mode} {h v : Z} (SZ : sq_size S h v).
  Context {g : SquareGraph N E ix S} {nf : NodeIndex -> N} {ef : EdgeIndex -> E}
    (B : SqBuilt m h v g nf ef).
  Let R : SqRep h v g nf ef := built_rep _ _ _ _ _ _ SZ B.

  Lemma h_out : forall x y, ~ (0 <= x < edge_columns S h /\ 0 <= y < v) ->
    array_uget m (sg_horizontal g) x y = Fail (out_of_bounds m).
  Proof using SZ B. intros x y H. apply uget_out. apply (array_get_out _ _ _ _ _ _ (sq_h_wf _ _ _ _ _ R)). lia. Qed.
  Lemma v_out : forall x y, ~ (0 <= x < h /\ 0 <= y < edge_rows S v) ->
    array_uget m (sg_vertical g) x y = Fail (out_of_bounds m).
  Proof using SZ B. intros x y H. apply uget_out. apply (array_get_out _ _ _ _ _ _ (sq_v_wf _ _ _ _ _ R)). lia. Qed.

  Lemma left_off : forall x y, 1 <= x < ix_size ix -> ni_left ix m (x, y) = Ok (x - 1, y).
  Proof.
    intros x y Hx. unfold ni_left. cbn [fst snd]. pose proof (ix_size_bounds ix).
    rewrite usize_sub_ok by (rewrite USIZE_pow; lia). cbn [bind]. rewrite ix_pred by lia. reflexivity.
  Qed.
  Lemma down_off : forall x y, 1 <= y < ix_size ix -> ni_down ix m (x, y) = Ok (x, y - 1).
  Proof.
    intros x y Hx. unfold ni_down. cbn [fst snd]. pose proof (ix_size_bounds ix).
    rewrite usize_sub_ok by (rewrite USIZE_pow; lia). cbn [bind]. rewrite ix_pred by lia. reflexivity.
  Qed.

  (** ** C61 *)

  Lemma c61_all : forall n, is_index ix n -> ~ on_board h v n ->
    Breaks (sg_edges_next m g) (sg_edges g n) (out_of_bounds m).
  Proof using SZ B.
    intros [x y] [Hx Hy] Hn. unfold on_board in Hn. cbn [fst snd] in *.
    pose proof (sizes SZ) as HS. pose proof (ix_size_bounds ix) as HI.
    destruct (counts g nf ef R) as (C1 & C2 & _).
    assert (HC : edge_columns S h = if loops_h S then h else h - 1) by reflexivity.
    assert (HR : edge_rows S v = if loops_v S then v else v - 1) by reflexivity.
    assert (S1 : x >= h -> edge_at m g (mkSE (x, y) 1) = Fail (out_of_bounds m) \/ loops_h S = false).
    { intros Hge. destruct (loops_h S) eqn:EL; auto. left.
      unfold edge_at. cbn [se_node se_state fst snd]. change (1 =? 0) with false. rewrite Z.eqb_refl.
      rewrite C1. replace (x <? h) with false by lia. apply assert_false.
      rewrite loops_h_eq, EL. cbn [bind]. rewrite h_out by lia. reflexivity. }
    assert (S0 : 0 < x -> (x - 1 < edge_columns S h /\ y < v ->
        exists o, edge_at m g (mkSE (x, y) 0) = Ok o) /\
        (~ (x - 1 < edge_columns S h /\ y < v) -> edge_at m g (mkSE (x, y) 0) = Fail (out_of_bounds m))).
    { intros Hpos. unfold edge_at. cbn [se_node se_state fst snd]. rewrite Z.eqb_refl.
      replace (x =? 0) with false by lia. cbn [andb]. rewrite left_off by lia. cbn [bind fst snd]. split.
      - intros Hin. rewrite (uget_h _ _ _ _ _ R) by lia. eexists. reflexivity.
      - intros Hout. rewrite h_out by lia. reflexivity. }
    destruct (Z_le_gt_dec h x) as [Hge|Hlt].
    - (* beyond the last column *)
      destruct (Z_lt_le_dec (x - 1) (edge_columns S h)) as [H1|H1];
        [destruct (Z_lt_le_dec y v) as [H2|H2]|].
      + apply edges_break with (kf := 1); [lia| |].
        * intros k Hk. replace k with 0 by lia. apply S0; lia.
        * destruct S1 as [S1|S1]; [lia|auto|]. rewrite S1 in HC. lia.
      + apply edges_break with (kf := 0); [lia|intros; lia|]. apply S0; lia.
      + apply edges_break with (kf := 0); [lia|intros; lia|]. apply S0; lia.
    - (* in a column of the board, above the last row *)
      assert (Hyv : v <= y) by lia.
      destruct (Z.eq_dec x 0) as [->|Hx0].
      2: { apply edges_break with (kf := 0); [lia|intros; lia|]. apply S0; lia. }
      destruct (loops_h S) eqn:EL.
      { apply edges_break with (kf := 0); [lia|intros; lia|].
        unfold edge_at. cbn [se_node se_state fst snd]. rewrite loops_h_eq, EL, !Z.eqb_refl. cbn [andb negb].
        rewrite C1, usize_sub_ok by (rewrite USIZE_pow; lia). cbn [bind fst snd]. rewrite h_out by lia. reflexivity. }
      assert (K0 : exists o, edge_at m g (mkSE (0, y) 0) = Ok o).
      { unfold edge_at. cbn [se_node se_state fst snd]. rewrite loops_h_eq, EL, !Z.eqb_refl. cbn [andb negb]. eauto. }
      assert (K1 : edge_at m g (mkSE (0, y) 1) = if h =? 1 then Ok None else Fail (out_of_bounds m)).
      { unfold edge_at. cbn [se_node se_state fst snd]. change (1 =? 0) with false. rewrite Z.eqb_refl, C1, loops_h_eq, EL.
        replace (0 <? h) with true by lia. rewrite debug_assert_true. cbn [bind].
        rewrite usize_add_ok by (rewrite USIZE_pow; lia). cbn [bind].
        destruct (Z.eqb_spec h 1) as [Hh|Hh]; [replace (0 + 1 =? h) with true by lia; reflexivity|].
        replace (0 + 1 =? h) with false by lia. rewrite h_out by lia. reflexivity. }
      destruct (Z.eqb_spec h 1) as [Hh|Hh].
      2: { apply edges_break with (kf := 1); [lia| |auto]. intros k Hk. replace k with 0 by lia. auto. }
      assert (K01 : forall k, 0 <= k < 2 -> exists o, edge_at m g (mkSE (0, y) k) = Ok o).
      { intros k Hk. assert (k = 0 \/ k = 1) as [-> | ->] by lia; eauto. }
      assert (K2 : (1 <= y < edge_rows S v + 1 -> exists o, edge_at m g (mkSE (0, y) 2) = Ok o) /\
                   (~ (1 <= y < edge_rows S v + 1) -> edge_at m g (mkSE (0, y) 2) = Fail (out_of_bounds m))).
      { unfold edge_at. cbn [se_node se_state fst snd]. change (2 =? 0) with false. change (2 =? 1) with false. change (2 =? 2) with true. cbv iota.
        rewrite C2, loops_v_eq. destruct (Z.eqb_spec y 0) as [->|Hy0].
        - split; [lia|]. intros _. assert (Hv0 : v = 0) by lia.
          assert (loops_v S = true) as EV.
          { pose proof (proj1 (proj2 SZ)) as HZ. destruct (loops_v S); auto. lia. }
          rewrite EV in *. cbn [andb negb]. cbv iota. rewrite Hv0 at 1.
          match goal with |- bind (bind _ ?f) ?k = _ => transitivity (bind (usize_sub m 0 1) (fun z => bind (f z) k)) end.
          { destruct (usize_sub m 0 1); reflexivity. }
          apply sub_wrap. cbn [bind fst snd]. rewrite v_out by lia. reflexivity.
        - cbn [andb]. rewrite down_off by lia. cbn [bind fst snd]. split.
          * intros Hin. rewrite (uget_v _ _ _ _ _ R) by lia. eexists. reflexivity.
          * intros Hout. rewrite v_out by lia. reflexivity. }
      assert (Hdec : 1 <= y < edge_rows S v + 1 \/ ~ (1 <= y < edge_rows S v + 1)) by lia.
      destruct Hdec as [Hin|Hout].
      + apply edges_break with (kf := 3); [lia| |].
        * intros k Hk. destruct (Z.eq_dec k 2) as [->|]; [apply K2; auto|apply K01; lia].
        * unfold edge_at. cbn [se_node se_state fst snd].
          change (3 =? 0) with false. change (3 =? 1) with false. change (3 =? 2) with false. cbv iota.
          rewrite C2. replace (y <? v) with false by lia.
          apply assert_false. rewrite loops_v_eq.
          destruct (loops_v S) eqn:EV; [|lia]. cbn [bind]. rewrite v_out by lia. reflexivity.
      + apply edges_break with (kf := 2); [lia|auto|]. apply K2. auto.
  Qed.

  (** ** C62 *)

  Lemma c62_all : forall n, is_index ix n -> n <> (0, 0) ->
    exists t it, sg_neighbors_next (ix := ix) (S := S) m (sg_neighbors g n) = Ok (Some t, it).
  Proof using SZ B.
    intros [x y] [Hx Hy] Hn0. cbn [fst snd] in *.
    pose proof (sizes SZ) as HS. pose proof (ix_size_bounds ix) as HI.
    destruct (counts g nf ef R) as (C1 & C2 & _).
    unfold sg_neighbors, sg_neighbors_next. rewrite C1, C2.
    match goal with |- context [loop ?b] => set (body := b) end.
    assert (Hb : forall k t, 0 <= k < 4 -> neighbor_at (ix := ix) (S := S) m (mkNB (x, y) k h v) = Ok t ->
      body (mkNB (x, y) k h v)
        = Ok (match t with Some t => inr (Some t, mkNB (x, y) (k + 1) h v) | None => inl (mkNB (x, y) (k + 1) h v) end)).
    { intros k t Hk Ht. unfold body. cbn [nb_state nb_node nb_h nb_v]. replace (4 <=? k) with false by lia.
      rewrite Ht. cbn [bind]. rewrite usize_add_ok by (rewrite USIZE_pow; lia). cbn [bind]. destruct t; reflexivity. }
    destruct (Z.eq_dec x 0) as [->|Hx0].
    - assert (Hy0 : y <> 0) by congruence.
      assert (H0 : neighbor_at (ix := ix) (S := S) m (mkNB (0, y) 0 h v)
        = Ok (if loops_h S then Some (ix_new ix (h - 1), y) else None)).
      { unfold neighbor_at. cbn [nb_state nb_node nb_h nb_v fst snd]. rewrite !Z.eqb_refl, loops_h_eq. cbn [negb].
        destruct (loops_h S); cbn [andb]; [|reflexivity].
        rewrite usize_sub_ok by (rewrite USIZE_pow; lia). reflexivity. }
      destruct (loops_h S) eqn:EL.
      { eexists _, _. eapply loop_rounds with (n := O); [|lia]. constructor. apply (Hb 0 _ ltac:(lia) H0). }
      assert (H1 : exists o, neighbor_at (ix := ix) (S := S) m (mkNB (0, y) 1 h v) = Ok o).
      { unfold neighbor_at. cbn [nb_state nb_node nb_h nb_v fst snd]. change (1 =? 0) with false.
        rewrite Z.eqb_refl, loops_h_eq, EL. cbn [andb].
        rewrite usize_add_ok by (rewrite USIZE_pow; lia). cbn [bind]. unfold ni_right. cbn [fst snd].
        rewrite usize_add_ok by (rewrite USIZE_pow; lia). cbn [bind]. destruct (0 + 1 <? h); eexists; reflexivity. }
      destruct H1 as [[t|] H1].
      { eexists _, _. eapply loop_rounds with (n := 1%nat); [|lia].
        eapply R_more; [apply (Hb 0 _ ltac:(lia) H0)|]. constructor. apply (Hb 1 _ ltac:(lia) H1). }
      assert (H2 : neighbor_at (ix := ix) (S := S) m (mkNB (0, y) 2 h v) = Ok (Some (0, y - 1))).
      { unfold neighbor_at. cbn [nb_state nb_node nb_h nb_v fst snd]. change (2 =? 0) with false.
        change (2 =? 1) with false. rewrite Z.eqb_refl.
        replace (y =? 0) with false by lia. cbn [negb]. rewrite down_off by lia. reflexivity. }
      eexists _, _. eapply loop_rounds with (n := 2%nat); [|lia].
      eapply R_more; [apply (Hb 0 _ ltac:(lia) H0)|]. eapply R_more; [apply (Hb 1 _ ltac:(lia) H1)|].
      constructor. apply (Hb 2 _ ltac:(lia) H2).
    - assert (H0 : neighbor_at (ix := ix) (S := S) m (mkNB (x, y) 0 h v) = Ok (Some (x - 1, y))).
      { unfold neighbor_at. cbn [nb_state nb_node nb_h nb_v fst snd]. rewrite Z.eqb_refl.
        replace (x =? 0) with false by lia. cbn [negb]. rewrite left_off by lia. reflexivity. }
      eexists _, _. eapply loop_rounds with (n := O); [|lia]. constructor. apply (Hb 0 _ ltac:(lia) H0).
  Qed.

  (** ** C48 *)

  Lemma c48_off : forall n, is_index ix n ->
    (h < fst n -> get_edge_reference m g n (Backward Horizontal) = Fail (out_of_bounds m)) /\
    (v < snd n -> get_edge_reference m g n (Backward Vertical) = Fail (out_of_bounds m)).
  Proof using SZ B.
    intros [x y] [Hx Hy]. cbn [fst snd] in *. pose proof (sizes SZ) as HS.
    assert (HC : edge_columns S h <= h) by (unfold edge_columns; destruct (loops_h S); lia).
    assert (HR : edge_rows S v <= v) by (unfold edge_rows; destruct (loops_v S); lia).
    split; intros Hgt; unfold get_edge_reference, get_edge_id; cbn [fst snd].
    - replace (x =? 0) with false by lia. cbn [negb]. rewrite left_off by lia. cbn [bind sd_is_horizontal axis_is_horizontal fst snd].
      rewrite h_out by lia. reflexivity.
    - replace (y =? 0) with false by lia. cbn [negb]. rewrite down_off by lia. cbn [bind sd_is_horizontal axis_is_horizontal fst snd].
      rewrite v_out by lia. reflexivity.
  Qed.
End Off.

(** ** C58 *)

Section Exchange.
  Context {N E : Type} {ix : IxType} {S : LoopShape} {m : mode} {h v : Z}
    (SZ : sq_size S h v) (FX : sq_index_fits ix h v).
  Context {g : SquareGraph N E ix S} {nf : NodeIndex -> N} {ef : EdgeIndex -> E}
    (B : SqBuilt m h v g nf ef).
  Let R : SqRep h v g nf ef := built_rep _ _ _ _ _ _ SZ B.

  Lemma uget_either : forall X (a : Array2 X) x y,
    (exists w, array_uget m a x y = Ok w) \/ array_uget m a x y = Fail (out_of_bounds m).
  Proof.
    intros X a x y. destruct (array_get a x y) as [w|] eqn:Eg.
    - left. exists w. unfold array_uget. rewrite Eg. reflexivity.
    - right. apply uget_out. auto.
  Qed.

  (** On the board every state of [edges] gives an answer or reads out of bounds, whatever
      the edge arrays are. *)
  Lemma exchanged_at : forall ha va (g' : SquareGraph N E ix S) x y k,
    g' = mkSquare (sg_nodes g) ha va -> 0 <= x < h -> 0 <= y < v -> 0 <= k < 4 ->
    (exists o, edge_at m g' (mkSE (x, y) k) = Ok o) \/
    edge_at m g' (mkSE (x, y) k) = Fail (out_of_bounds m).
  Proof using SZ FX B.
    intros ha va g' x y k -> Hx Hy Hk. pose proof (sizes SZ) as HS.
    destruct (counts g nf ef R) as (C1 & C2 & _).
    unfold horizontal_node_count, vertical_node_count in C1, C2.
    unfold edge_at, horizontal_node_count, vertical_node_count.
    cbn [se_node se_state sg_nodes sg_horizontal sg_vertical fst snd]. rewrite C1, C2.
    assert (k = 0 \/ k = 1 \/ k = 2 \/ k = 3) as [-> | [-> | [-> | ->]]] by lia.
    - rewrite Z.eqb_refl. destruct (Z.eqb_spec x 0) as [->|Hn].
      + destruct (LOOP_HORIZONTAL S); cbn [negb andb]; [|eauto].
        rewrite usize_sub_ok by (rewrite USIZE_pow; lia). cbn [bind fst snd].
        destruct (uget_either _ ha (ix_new ix (h - 1)) y) as [[w ->]| ->]; cbn [bind]; eauto.
      + cbn [andb]. rewrite (ni_left_ok SZ FX) by lia. cbn [bind fst snd].
        destruct (uget_either _ ha (x - 1) y) as [[w ->]| ->]; cbn [bind]; eauto.
    - change (1 =? 0) with false. rewrite Z.eqb_refl. replace (x <? h) with true by lia.
      rewrite debug_assert_true. cbn [bind].
      assert (Hu : exists b, (if LOOP_HORIZONTAL S then Ok false else let! x1 := usize_add m x 1 in Ok (x1 =? h)) = Ok b).
      { rewrite usize_add_ok by (rewrite USIZE_pow; lia). destruct (LOOP_HORIZONTAL S); cbn [bind]; eauto. }
      destruct Hu as [b ->]. cbn [bind]. destruct b; [eauto|].
      destruct (uget_either _ ha x y) as [[w ->]| ->]; cbn [bind]; eauto.
    - change (2 =? 0) with false. change (2 =? 1) with false. rewrite Z.eqb_refl.
      destruct (Z.eqb_spec y 0) as [->|Hn].
      + destruct (LOOP_VERTICAL S); cbn [negb andb]; [|eauto].
        rewrite usize_sub_ok by (rewrite USIZE_pow; lia). cbn [bind fst snd].
        destruct (uget_either _ va x (ix_new ix (v - 1))) as [[w ->]| ->]; cbn [bind]; eauto.
      + cbn [andb]. rewrite (ni_down_ok SZ FX) by lia. cbn [bind fst snd].
        destruct (uget_either _ va x (y - 1)) as [[w ->]| ->]; cbn [bind]; eauto.
    - change (3 =? 0) with false. change (3 =? 1) with false. change (3 =? 2) with false. cbv iota.
      replace (y <? v) with true by lia. rewrite debug_assert_true. cbn [bind].
      assert (Hu : exists b, (if LOOP_VERTICAL S then Ok false else let! x1 := usize_add m y 1 in Ok (x1 =? v)) = Ok b).
      { rewrite usize_add_ok by (rewrite USIZE_pow; lia). destruct (LOOP_VERTICAL S); cbn [bind]; eauto. }
      destruct Hu as [b ->]. cbn [bind]. destruct b; [eauto|].
      destruct (uget_either _ va x y) as [[w ->]| ->]; cbn [bind]; eauto.
  Qed.

  Lemma c58_horizontal : forall f x y, sq_edge_exists S h v ((x, y), Horizontal) ->
    array_get (f (sg_horizontal g)) x y = None ->
    Breaks (sg_edges_next m (horizontal_mut g f)) (sg_edges (horizontal_mut g f) (x, y)) (out_of_bounds m).
  Proof using SZ FX B.
    intros f x y He Hn. apply edge_exists_h in He. pose proof (sizes SZ) as HS.
    assert (Hx : 0 <= x < h) by (unfold edge_columns in He; destruct (loops_h S); lia).
    apply edges_break' with (kf := 1); [lia| |].
    - intros k Hk. apply (exchanged_at (f (sg_horizontal g)) (sg_vertical g)); auto; lia.
    - destruct (counts g nf ef R) as (C1 & C2 & _). unfold horizontal_node_count, vertical_node_count in C1, C2.
      unfold edge_at, horizontal_node_count, vertical_node_count, horizontal_mut.
      cbn [se_node se_state sg_nodes sg_horizontal sg_vertical fst snd]. rewrite C1.
      change (1 =? 0) with false. rewrite Z.eqb_refl. replace (x <? h) with true by lia.
      rewrite debug_assert_true. cbn [bind]. rewrite loops_h_eq. unfold edge_columns in He.
      destruct (loops_h S); cbn [bind].
      + rewrite uget_out by auto. reflexivity.
      + rewrite usize_add_ok by (rewrite USIZE_pow; lia). cbn [bind].
        replace (x + 1 =? h) with false by lia. rewrite uget_out by auto. reflexivity.
  Qed.

  Lemma c58_vertical : forall f x y, sq_edge_exists S h v ((x, y), Vertical) ->
    array_get (f (sg_vertical g)) x y = None ->
    Breaks (sg_edges_next m (vertical_mut g f)) (sg_edges (vertical_mut g f) (x, y)) (out_of_bounds m).
  Proof using SZ FX B.
    intros f x y He Hn. apply edge_exists_v in He. pose proof (sizes SZ) as HS.
    assert (Hy : 0 <= y < v) by (unfold edge_rows in He; destruct (loops_v S); lia).
    apply edges_break' with (kf := 3); [lia| |].
    - intros k Hk. apply (exchanged_at (sg_horizontal g) (f (sg_vertical g))); auto; lia.
    - destruct (counts g nf ef R) as (C1 & C2 & _). unfold horizontal_node_count, vertical_node_count in C1, C2.
      unfold edge_at, horizontal_node_count, vertical_node_count, vertical_mut.
      cbn [se_node se_state sg_nodes sg_horizontal sg_vertical fst snd]. rewrite C2.
      change (3 =? 0) with false. change (3 =? 1) with false. change (3 =? 2) with false. cbv iota.
      replace (y <? v) with true by lia.
      rewrite debug_assert_true. cbn [bind]. rewrite loops_v_eq. unfold edge_rows in He.
      destruct (loops_v S); cbn [bind].
      + rewrite uget_out by auto. reflexivity.
      + rewrite usize_add_ok by (rewrite USIZE_pow; lia). cbn [bind].
        replace (y + 1 =? v) with false by lia. rewrite uget_out by auto. reflexivity.
  Qed.

  (** ** C59 *)

  Lemma c59_all : forall a b, on_board h v a -> on_board h v b ->
    exists d k, ni_distance m a b = Ok d /\ sq_shortest m g a b k /\ k <= d /\
      (k = d <-> ~ (loops_h S = true /\ h < 2 * Z.abs (fst a - fst b)) /\
                 ~ (loops_v S = true /\ v < 2 * Z.abs (snd a - snd b))).
  Proof using SZ FX B.
    intros a b Ha Hb. exists (manhattan a b), (sq_distance S h v a b).
    split; [apply distance_ok; eapply on_board_small; eauto|].
    split; [apply (sq_shortest_dist SZ FX B); auto|].
    unfold sq_distance, ring_distance, manhattan. destruct Ha, Hb.
    destruct (loops_h S), (loops_v S); split; try lia; split; intros; try split; try lia.
  Qed.

  Lemma c59_looped : loops_h S = true /\ 3 <= h /\ 1 <= v \/ loops_v S = true /\ 3 <= v ->
    exists a b d k, on_board h v a /\ on_board h v b /\ ni_distance m a b = Ok d /\
      SqPath m g k a b /\ Z.of_nat k < d.
  Proof using SZ FX B.
    intros HL. pose proof (sizes SZ) as HS.
    assert (Hex : exists a b, on_board h v a /\ on_board h v b /\
      (loops_h S = true /\ h < 2 * Z.abs (fst a - fst b) \/ loops_v S = true /\ v < 2 * Z.abs (snd a - snd b))).
    { destruct HL as [(H1 & H2 & H3)|(H1 & H2)].
      - exists (0, 0), (h - 1, 0). unfold on_board. cbn [fst snd]. split; [lia|]. split; [lia|]. left. split; auto. lia.
      - exists (0, 0), (0, v - 1). unfold on_board. cbn [fst snd]. split; [lia|]. split; [lia|]. right. split; auto. lia. }
    destruct Hex as (a & b & Ha & Hb & Hab). destruct (c59_all a b Ha Hb) as (d & k & H1 & ((k' & HP & HK) & _) & H3 & H4).
    exists a, b, d, k'. split; auto. split; auto. split; auto. split; auto.
    assert (k <> d) by (rewrite H4; tauto). lia.
  Qed.
End Exchange.

(** ** C60 *)

Lemma consumed_map : forall St X Y (nx : St -> outcome (option X * St)) (ny : St -> outcome (option Y * St)) (f : X -> Y),
  (forall it, ny it = let! (o, it') := nx it in Ok (option_map f o, it')) ->
  forall it l it', Consumed nx it l it' -> Consumed ny it (map f l) it'.
Proof.
  intros St X Y nx ny f H it l it' HC. induction HC as [it|it x it1 l it2 E1 _ IH]; [constructor|].
  cbn [map]. econstructor; [|exact IH]. rewrite H, E1. reflexivity.
Qed.

Lemma drains_map : forall St X Y (nx : St -> outcome (option X * St)) (ny : St -> outcome (option Y * St)) (f : X -> Y),
  (forall it, ny it = let! (o, it') := nx it in Ok (option_map f o, it')) ->
  forall it l, Drains nx it l -> Drains ny it (map f l).
Proof.
  intros St X Y nx ny f H it l (it1 & it2 & HC & E1 & E2). exists it1, it2.
  split; [eapply consumed_map; eauto|]. rewrite !H, E1, E2. auto.
Qed.

Lemma ix_new_usize : forall ix x, ix_new ix (ix_new IxUsize x) = ix_new ix x.
Proof.
  intros ix x. unfold ix_new. cbn [ix_size].
  assert (Hd : exists q, 0 < q /\ 2 ^ 64 = ix_size ix * q).
  { destruct ix; [exists (2 ^ 56)|exists (2 ^ 48)|exists (2 ^ 32)|exists 1]; split; reflexivity || lia. }
  destruct Hd as (q & Hq & ->). pose proof (ix_size_bounds ix). rewrite Z.rem_mul_r by lia.
  rewrite Z.mul_comm, Z.mod_add by lia. apply Z.mod_mod. lia.
Qed.

Lemma indices_trunc : forall ix m it, sg_node_indices_next (ix := ix) m it
  = let! (o, it') := sg_node_indices_next (ix := IxUsize) m it in Ok (option_map (ni_of_pair ix) o, it').
Proof.
  intros ix m it. unfold sg_node_indices_next. destruct (ni_v it <? ni_v_max it).
  - destruct (usize_add m (ni_v it) 1); [|reflexivity]. cbn [bind option_map]. unfold ni_of_pair. cbn [fst snd].
    rewrite !ix_new_usize. reflexivity.
  - destruct (usize_add m (ni_h it) 1) as [z|]; [|reflexivity]. cbn [bind]. destruct (z <? ni_h_max it); [|reflexivity].
    cbn [bind option_map]. unfold ni_of_pair. cbn [fst snd]. rewrite !ix_new_usize. reflexivity.
Qed.

Section Trunc.
  Context {N E : Type} {ix : IxType} {S : LoopShape} {m : mode} {h v : Z} (SZ : sq_size S h v).
  Context {g : SquareGraph N E ix S} {nf : NodeIndex -> N} {ef : EdgeIndex -> E}
    (B : SqBuilt m h v g nf ef).
  Let R : SqRep h v g nf ef := built_rep _ _ _ _ _ _ SZ B.

  Lemma c60_all : 1 <= v -> exists l,
    Drains (sg_node_indices_next (ix := ix) m) (sg_node_identifiers g) l /\
    Z.of_nat (length l) = sg_node_count g /\ (NoDup l <-> sq_index_fits ix h v).
  Proof using SZ B.
    intros Hv. pose proof (sizes SZ) as HS. destruct (counts g nf ef R) as (C1 & C2 & C3 & C4).
    exists (map (ni_of_pair ix) (sq_nodes h v)).
    assert (FX : sq_index_fits IxUsize h v) by (unfold sq_index_fits; cbn [ix_size]; lia).
    split.
    { eapply drains_map; [apply indices_trunc|]. unfold sg_node_identifiers. rewrite C1, C2.
      eapply IterInv_drains; [apply (ni_inv SZ FX)|].
      pose proof (ni_start SZ) as H0. replace (1 <=? v) with true in H0 by lia. exact H0. }
    split. { rewrite map_length, C3. exact (sq_nodes_length SZ). }
    pose proof (ix_size_bounds ix) as HI. split.
    - intros ND. unfold sq_index_fits.
      assert (Hinj : forall n n', on_board h v n -> on_board h v n' -> ni_of_pair ix n = ni_of_pair ix n' -> n = n').
      { intros n n' Hn Hn' He. apply sq_in_nodes in Hn, Hn'. clear - ND Hn Hn' He.
        induction (sq_nodes h v) as [|c l IH]; [destruct Hn|]. cbn [map] in ND. apply NoDup_cons_iff in ND. destruct ND as [Hc ND].
        destruct Hn as [<-|Hn], Hn' as [<-|Hn']; auto.
        - exfalso. apply Hc. rewrite He. apply in_map. auto.
        - exfalso. apply Hc. rewrite <- He. apply in_map. auto. }
      split.
      + destruct (Z_le_gt_dec h (ix_size ix)) as [|Hgt]; auto. exfalso.
        assert (He : (0, 0) = (ix_size ix, 0) :> NodeIndex); [|injection He; lia].
        apply Hinj; unfold on_board; cbn [fst snd]; try lia.
        unfold ni_of_pair, ix_new. cbn [fst snd]. rewrite Z_mod_same_full, Z.mod_0_l by lia. reflexivity.
      + destruct (Z_le_gt_dec v (ix_size ix)) as [|Hgt]; auto. exfalso.
        assert (He : (0, 0) = (0, ix_size ix) :> NodeIndex); [|injection He; lia].
        apply Hinj; unfold on_board; cbn [fst snd]; try lia.
        unfold ni_of_pair, ix_new. cbn [fst snd]. rewrite Z_mod_same_full, Z.mod_0_l by lia. reflexivity.
    - intros FI. rewrite (map_ext_in _ (fun n => n)).
      + rewrite map_id. apply sq_nodes_nodup.
      + intros [x y] Hin. apply sq_in_nodes in Hin. destruct Hin as [Hx Hy], FI as [F1 F2]. cbn [fst snd] in *.
        unfold ni_of_pair. cbn [fst snd]. rewrite !ix_new_small by lia. reflexivity.
  Qed.
End Trunc.

(** ** C58: exchanges that are safe *)

Section Same.
  Context {N E : Type} {ix : IxType} {S : LoopShape} {m : mode} {h v : Z}
    (SZ : sq_size S h v) (FX : sq_index_fits ix h v).
  Context {g : SquareGraph N E ix S} {nf : NodeIndex -> N} {ef : EdgeIndex -> E}
    (B : SqBuilt m h v g nf ef).

  Lemma c58_same_size : forall fn fh fv, same_size (fn (sg_nodes g)) (sg_nodes g) ->
    same_size (fh (sg_horizontal g)) (sg_horizontal g) -> same_size (fv (sg_vertical g)) (sg_vertical g) ->
    let g' := vertical_mut (horizontal_mut (nodes_mut g fn) fh) fv in
    (forall n, on_board h v n -> exists l, Drains (sg_edges_next m g') (sg_edges g' n) l) /\
    exists l, Drains (sg_edge_references_next m g') (sg_edge_references g') l.
  Proof using SZ FX B.
    intros fn fh fv Hn Hh Hv g'.
    assert (B' : exists nf' ef', SqBuilt m h v g' nf' ef').
    { exists (fun n => match array_get (fn (sg_nodes g)) (fst n) (snd n) with Some w => w | None => nf n end),
        (fun e => match array_get (match snd e with Horizontal => fh (sg_horizontal g) | Vertical => fv (sg_vertical g) end)
                          (fst (fst e)) (snd (fst e)) with Some w => w | None => ef e end).
      unfold g'. eapply sq_built_vertical with (ef := fun e => match snd e with
        | Horizontal => match array_get (fh (sg_horizontal g)) (fst (fst e)) (snd (fst e)) with Some w => w | None => ef e end
        | Vertical => ef e end).
      - eapply sq_built_horizontal; [eapply sq_built_nodes; [exact B|exact Hn|]| | |].
        + intros x y w Hw. cbn [fst snd]. rewrite Hw. reflexivity.
        + exact Hh.
        + intros x y w Hw. cbn [nodes_mut sg_horizontal] in Hw. cbn [fst snd]. rewrite Hw. reflexivity.
        + reflexivity.
      - exact Hv.
      - intros x y w Hw. cbn [nodes_mut horizontal_mut sg_vertical] in Hw. cbn [fst snd]. rewrite Hw. reflexivity.
      - reflexivity. }
    destruct B' as (nf' & ef' & B'). split.
    - intros n Hb. destruct (c45 SZ FX B' n Hb) as (l & HD & _). eauto.
    - destruct (c46 SZ FX B') as (l & HD & _). eauto.
  Qed.

  Lemma c58_references : forall fh fv,
    let g' := vertical_mut (horizontal_mut g fh) fv in
    exists l, Drains (sg_edge_references_next m g') (sg_edge_references g') l.
  Proof using SZ FX B.
    intros fh fv g'. destruct (counts g nf ef (built_rep _ _ _ _ _ _ SZ B)) as (C1 & C2 & _).
    eexists. eapply IterInv_drains; [apply (er_inv SZ FX)|].
    eexists. split; [|reflexivity]. unfold sg_edge_references, g'. cbn [er_nodes].
    unfold horizontal_node_count, vertical_node_count, horizontal_mut, vertical_mut in *. cbn [sg_nodes].
    rewrite C1, C2. apply (ni_start SZ).
  Qed.

  (** ** C70 *)

  Lemma c70_edge : forall n d t, on_board h v n -> sq_neighbour S h v n d = Some t ->
    (forall a, d = Backward a -> t = vadd n (sq_dir_vec d)) ->
    ni_get_edge_id_unchecked ix m n d = Ok (sq_edge_name n d t).
  Proof using SZ FX.
    intros [x y] d t [Hx Hy] Ht Hv. cbn [fst snd] in *.
    pose proof (neighbour_on_board _ _ _ _ _ (conj Hx Hy : on_board h v (x, y)) Ht) as [Tx Ty].
    pose proof (sizes SZ) as HS.
    destruct d as [a|[]]; [reflexivity| |]; specialize (Hv _ eq_refl);
      unfold sq_dir_vec, sq_axis_vec, vadd, vneg in Hv; cbn [fst snd] in Hv; rewrite ?Z.add_0_r in Hv;
      subst t; cbn [fst snd] in Tx, Ty; unfold ni_get_edge_id_unchecked, sq_edge_name; cbn [fst snd].
    - change (- (1)) with (-1) in Tx. rewrite usize_sub_ok by (rewrite USIZE_pow; lia).
      cbn [bind]. rewrite (ix_x FX) by lia. auto.
    - change (- (1)) with (-1) in Ty. rewrite usize_sub_ok by (rewrite USIZE_pow; lia).
      cbn [bind]. rewrite (ix_y FX) by lia. auto.
  Qed.

  Lemma c70_step : forall d vec f n t,
    In (d, vec, f) [(sd_up, (0, 1), ni_up ix m); (sd_down, (0, -1), ni_down ix m);
                    (sd_left, (-1, 0), ni_left ix m); (sd_right, (1, 0), ni_right ix m)] ->
    on_board h v n -> t = vadd n vec -> on_board h v t ->
    sq_neighbour S h v n d = Some t /\ f n = Ok t.
  Proof using SZ FX.
    intros d vec f [x y] t Hin [Hx Hy] -> [Tx Ty]. cbn [fst snd vadd] in *.
    repeat destruct Hin as [Hin|Hin]; try (injection Hin as <- <- <-); [ | | | |destruct Hin]; unfold vadd in *; cbn [fst snd] in *;
      unfold sd_up, sd_down, sd_left, sd_right.
    - rewrite (ni_up_ok SZ FX) by lia. rewrite sq_neighbour_fwd_v by auto. rewrite Z.add_0_r.
      replace (y + 1 <? v) with true by lia. auto.
    - rewrite (ni_down_ok SZ FX) by lia. rewrite sq_neighbour_bwd_v by auto. rewrite Z.add_0_r.
      replace (y =? 0) with false by lia. auto.
    - rewrite (ni_left_ok SZ FX) by lia. rewrite sq_neighbour_bwd_h by auto. rewrite Z.add_0_r.
      replace (x =? 0) with false by lia. auto.
    - rewrite (ni_right_ok SZ FX) by lia. rewrite sq_neighbour_fwd_h by auto. rewrite Z.add_0_r.
      replace (x + 1 <? h) with true by lia. auto.
  Qed.
End Same.

Lemma c70_rim : forall ix n, is_index ix n ->
  (fst n = 0 ->
   ni_get_edge_id_unchecked ix Debug n sd_left = Fail FPanic /\
   ni_get_edge_id_unchecked ix Release n sd_left = Ok ((ix_size ix - 1, snd n), Horizontal)) /\
  (snd n = 0 ->
   ni_get_edge_id_unchecked ix Debug n sd_down = Fail FPanic /\
   ni_get_edge_id_unchecked ix Release n sd_down = Ok ((fst n, ix_size ix - 1), Vertical)).
Proof.
  intros ix [x y] _. cbn [fst snd]. split; intros ->; split; try reflexivity; destruct ix; reflexivity.
Qed.

Lemma c70_pairs : forall d p,
  sd_of_pair (sd_to_pair d) = d /\ sd_to_pair (sd_of_pair p) = p /\
  sq_dir_vec d = (let (a, forward) := sd_to_pair d in
                  if forward then sq_axis_vec a else vneg (sq_axis_vec a)) /\
  (sd_is_horizontal d = true <-> snd (sq_dir_vec d) = 0) /\
  (sd_is_vertical d = true <-> fst (sq_dir_vec d) = 0).
Proof.
  intros d [a b]. split; [destruct d; reflexivity|]. split; [destruct b; reflexivity|].
  split; [destruct d; reflexivity|]. destruct d as [[]|[]]; cbn; repeat split; intros; congruence || lia.
Qed.

Lemma c40_edge_graph : forall E ix S St (fe : St -> NodeIndex -> SqAxis -> E * St) m h v st, sq_size S h v ->
  exists g : SquareGraph unit E ix S,
    sg_new_edge_graph m h v (edge_fun fe) st
      = Ok (g, state_after (fun st _ => (tt, st)) fe (sq_calls S h v) st) /\
    (forall n, on_board h v n -> sg_node_weight g n = Some tt) /\
    (forall l1 n a l2, sq_calls S h v = l1 ++ CallEdge n a :: l2 ->
       sg_edge_weight g (n, a) = Some (fst (fe (state_after (fun st _ => (tt, st)) fe l1 st) n a))).
Proof.
  intros E ix S St fe m h v st SZ.
  destruct (c40 (ix := ix) (fun (st : St) (_ : NodeIndex) => (tt, st)) fe m h v st SZ)
    as (g & E1 & _ & _ & _ & _ & _ & _ & _ & Hn & He).
  exists g. split; [exact E1|]. split; auto.
  intros n Hb. destruct (in_split _ _ (proj2 (proj1 (proj2 (c40_calls (S := S) h v)) n) Hb)) as (l1 & l2 & Hl).
  exact (Hn _ _ _ Hl).
Qed.

(** ** C71 *)

Section Raw.
  Context {N E : Type} {ix : IxType} {S : LoopShape}.
  Notation graph := (SquareGraph N E ix S).

  Lemma c71_accepts : forall m h v (na : Array2 N) (ha va : Array2 E) nf ef, sq_size S h v ->
    is_array na h v -> is_array ha (edge_columns S h) v -> is_array va h (edge_rows S v) ->
    (forall x y w, array_get na x y = Some w -> nf (x, y) = w) ->
    (forall x y w, array_get ha x y = Some w -> ef ((x, y), Horizontal) = w) ->
    (forall x y w, array_get va x y = Some w -> ef ((x, y), Vertical) = w) ->
    exists g : graph, new_raw m na ha va = Ok g /\ SqBuilt m h v g nf ef.
  Proof.
    intros m h v na ha va nf ef SZ Hn Hh Hv F1 F2 F3. exists (mkSquare na ha va).
    assert (HE : new_raw m na ha va = Ok (mkSquare (ix := ix) (S := S) na ha va)).
    { destruct m; [|reflexivity]. unfold new_raw, check_gen. cbn [sg_nodes sg_horizontal sg_vertical].
      destruct Hn as (A1 & A2 & _), Hh as (B1 & B2 & _), Hv as (C1 & C2 & _). rewrite A1, A2, B1, B2, C1, C2.
      pose proof (sizes SZ) as HS. destruct SZ as (_ & HV & _).
      rewrite loops_h_eq, loops_v_eq. unfold edge_columns, edge_rows.
      destruct (loops_h S), (loops_v S); rewrite !usize_add_ok by (rewrite USIZE_pow; lia); cbn [bind];
        rewrite ?Z.add_0_r, ?Z.sub_add, !Z.eqb_refl; cbn [andb]; rewrite ?Z.eqb_refl; reflexivity. }
    split; [exact HE|]. eapply sq_built_raw; eauto.
  Qed.

  Lemma c71_checks : forall (na : Array2 N) (ha va : Array2 E),
    0 <= nrows ha < 2 ^ 63 -> 0 <= ncols va < 2 ^ 63 ->
    new_raw (ix := ix) (S := S) Debug na ha va =
      (if (nrows ha =? edge_columns S (nrows na)) && (ncols ha =? ncols na) &&
          (nrows va =? nrows na) && (ncols va =? edge_rows S (ncols na))
       then Ok (mkSquare na ha va) else Fail FPanic) /\
    new_raw (ix := ix) (S := S) Release na ha va = Ok (mkSquare na ha va).
  Proof.
    intros na ha va H1 H2. split; [|reflexivity].
    unfold new_raw, check_gen. cbn [sg_nodes sg_horizontal sg_vertical].
    rewrite loops_h_eq, loops_v_eq. unfold edge_columns, edge_rows.
    rewrite usize_add_ok by (rewrite USIZE_pow; destruct (loops_h S); lia). cbn [bind].
    rewrite usize_add_ok by (rewrite USIZE_pow; destruct (loops_v S); lia). cbn [bind].
    match goal with |- (let! b := (if ?p then Ok ?q else Ok false) in _) = (if ?r then _ else _) =>
      assert (Hr : r = (p && q)%bool) by (destruct (loops_h S), (loops_v S); lia);
      rewrite Hr; destruct p; cbn [bind andb]; [destruct q|]; reflexivity end.
  Qed.
End Raw.
