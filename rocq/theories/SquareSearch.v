(** * SquareSearch: distances and petgraph's searches on a [SquareGraph]. *)

From Verif Require Import Machine Store Axes Shapes Lattice SquareGraph Traverse Spec SpecSquare
  Basics GeoProofs GraphProofs RepProofs VisitProofs SquareProofs SquareIter SquareMain TraverseProofs.
From Coq Require Import ZifyBool ZifyNat Sorted Permutation.
Ltac Zify.zify_post_hook ::= Z.div_mod_to_equations.

Lemma some_node : forall a b c d : Z, a = c -> b = d ->
  @eq (option NodeIndex) (Some (a, b)) (Some (c, d)).
Proof. intros a b c d -> ->. reflexivity. Qed.

Section Search.
  Context {N E : Type} {ix : IxType} {S : LoopShape} {m : mode} {h v : Z}
    (SZ : sq_size S h v) (FX : sq_index_fits ix h v).
  Context {g : SquareGraph N E ix S} {nf : NodeIndex -> N} {ef : EdgeIndex -> E}
    (B : SqBuilt m h v g nf ef).

  Notation dist := (sq_distance S h v).
  Notation next := (fun _ : NodeIndex => sg_neighbors_next (ix := ix) (S := S) m).

  Lemma dist_zero : forall a, on_board h v a -> dist a a = 0.
  Proof.
    intros [x y] [Hx Hy]. unfold sq_distance, ring_distance. cbn [fst snd] in *.
    destruct (loops_h S), (loops_v S); lia.
  Qed.
  Lemma dist_pos : forall a b, on_board h v a -> on_board h v b -> 0 <= dist a b.
  Proof.
    intros [x y] [x' y'] [Hx Hy] [Hx' Hy']. unfold sq_distance, ring_distance. cbn [fst snd] in *.
    destruct (loops_h S), (loops_v S); lia.
  Qed.
  Lemma dist_same : forall a b, on_board h v a -> on_board h v b -> dist a b = 0 -> a = b.
  Proof.
    intros [x y] [x' y'] [Hx Hy] [Hx' Hy']. unfold sq_distance, ring_distance. cbn [fst snd] in *.
    intros H. assert (x = x' /\ y = y') as [-> ->]; auto.
    destruct (loops_h S), (loops_v S); lia.
  Qed.
  Lemma dist_sym : forall a b, dist a b = dist b a.
  Proof.
    intros [x y] [x' y']. unfold sq_distance, ring_distance. cbn [fst snd].
    destruct (loops_h S), (loops_v S); lia.
  Qed.

  (** A step changes the distance by at most one. *)
  Lemma dist_step : forall a d t b, on_board h v a -> on_board h v b ->
    sq_neighbour S h v a d = Some t -> dist t b <= dist a b + 1 /\ dist a b <= dist t b + 1.
  Proof.
    intros [x y] d t [x' y'] [Hx Hy] [Hx' Hy'] H. cbn [fst snd] in *.
    unfold sq_distance, ring_distance.
    destruct d as [[]|[]];
      rewrite ?sq_neighbour_fwd_h, ?sq_neighbour_fwd_v, ?sq_neighbour_bwd_h, ?sq_neighbour_bwd_v
        in H by auto;
      destruct (loops_h S), (loops_v S);
      match type of H with (if ?c then _ else _) = _ => destruct c eqn:Ec end; try discriminate;
      injection H as <-; cbn [fst snd]; lia.
  Qed.

  (** A step towards the goal. *)
  Lemma dist_desc : forall a b, on_board h v a -> on_board h v b -> 0 < dist a b ->
    exists d t, sq_neighbour S h v a d = Some t /\ dist t b <= dist a b - 1.
  Proof.
    intros [x y] [x' y'] [Hx Hy] [Hx' Hy'] H. cbn [fst snd] in *.
    assert (HH : ring_distance (loops_h S) h x x' > 0 ->
      exists d t, sq_neighbour S h v (x, y) d = Some t /\ snd t = y /\
        ring_distance (loops_h S) h (fst t) x' <= ring_distance (loops_h S) h x x' - 1).
    { unfold ring_distance. intros Hr.
      assert (HC : (x < x' /\ (loops_h S = false \/ x' - x <= h - (x' - x))) \/
                   (x' < x /\ loops_h S = true /\ h - (x - x') < x - x') \/
                   (x' < x /\ (loops_h S = false \/ x - x' <= h - (x - x'))) \/
                   (x < x' /\ loops_h S = true /\ h - (x' - x) < x' - x))
        by (destruct (loops_h S); lia).
      destruct HC as [HC|[HC|HC]].
      - exists (Foward Horizontal), (x + 1, y). rewrite sq_neighbour_fwd_h by auto.
        replace (x + 1 <? h) with true by lia. split; auto. cbn [fst snd]. split; auto.
        destruct (loops_h S); lia.
      - destruct HC as (H1 & H2 & H3). rewrite H2.
        destruct (Z.ltb_spec (x + 1) h) as [Hl|Hl].
        + exists (Foward Horizontal), (x + 1, y). rewrite sq_neighbour_fwd_h by auto.
          replace (x + 1 <? h) with true by lia. split; auto. cbn [fst snd]. split; auto. lia.
        + exists (Foward Horizontal), (0, y). rewrite sq_neighbour_fwd_h by auto.
          replace (x + 1 <? h) with false by lia. rewrite H2. split; auto. cbn [fst snd].
          split; auto. lia.
      - destruct HC as [HC|HC].
        + exists (Backward Horizontal), (x - 1, y). rewrite sq_neighbour_bwd_h by auto.
          replace (x =? 0) with false by lia. split; auto. cbn [fst snd]. split; auto.
          destruct (loops_h S); lia.
        + destruct HC as (H1 & H2 & H3). rewrite H2.
          destruct (Z.eqb_spec x 0) as [Hl|Hl].
          * exists (Backward Horizontal), (h - 1, y). rewrite sq_neighbour_bwd_h by auto.
            replace (x =? 0) with true by lia. rewrite H2. split; auto. cbn [fst snd]. split; auto.
            lia.
          * exists (Backward Horizontal), (x - 1, y). rewrite sq_neighbour_bwd_h by auto.
            replace (x =? 0) with false by lia. split; auto. cbn [fst snd]. split; auto. lia. }
    assert (HV : ring_distance (loops_v S) v y y' > 0 ->
      exists d t, sq_neighbour S h v (x, y) d = Some t /\ fst t = x /\
        ring_distance (loops_v S) v (snd t) y' <= ring_distance (loops_v S) v y y' - 1).
    { clear HH. unfold ring_distance. intros Hr.
      assert (HC : (y < y' /\ (loops_v S = false \/ y' - y <= v - (y' - y))) \/
                   (y' < y /\ loops_v S = true /\ v - (y - y') < y - y') \/
                   (y' < y /\ (loops_v S = false \/ y - y' <= v - (y - y'))) \/
                   (y < y' /\ loops_v S = true /\ v - (y' - y) < y' - y))
        by (destruct (loops_v S); lia).
      destruct HC as [HC|[HC|HC]].
      - exists (Foward Vertical), (x, y + 1). rewrite sq_neighbour_fwd_v by auto.
        replace (y + 1 <? v) with true by lia. split; auto. cbn [fst snd]. split; auto.
        destruct (loops_v S); lia.
      - destruct HC as (H1 & H2 & H3). rewrite H2.
        destruct (Z.ltb_spec (y + 1) v) as [Hl|Hl].
        + exists (Foward Vertical), (x, y + 1). rewrite sq_neighbour_fwd_v by auto.
          replace (y + 1 <? v) with true by lia. split; auto. cbn [fst snd]. split; auto. lia.
        + exists (Foward Vertical), (x, 0). rewrite sq_neighbour_fwd_v by auto.
          replace (y + 1 <? v) with false by lia. rewrite H2. split; auto. cbn [fst snd].
          split; auto. lia.
      - destruct HC as [HC|HC].
        + exists (Backward Vertical), (x, y - 1). rewrite sq_neighbour_bwd_v by auto.
          replace (y =? 0) with false by lia. split; auto. cbn [fst snd]. split; auto.
          destruct (loops_v S); lia.
        + destruct HC as (H1 & H2 & H3). rewrite H2.
          destruct (Z.eqb_spec y 0) as [Hl|Hl].
          * exists (Backward Vertical), (x, v - 1). rewrite sq_neighbour_bwd_v by auto.
            replace (y =? 0) with true by lia. rewrite H2. split; auto. cbn [fst snd]. split; auto.
            lia.
          * exists (Backward Vertical), (x, y - 1). rewrite sq_neighbour_bwd_v by auto.
            replace (y =? 0) with false by lia. split; auto. cbn [fst snd]. split; auto. lia. }
    unfold sq_distance in *. cbn [fst snd] in *.
    destruct (Z_gt_le_dec (ring_distance (loops_h S) h x x') 0) as [Hg|Hg].
    - destruct (HH Hg) as (d & [tx ty] & H1 & H2 & H3). exists d, (tx, ty). split; auto.
      cbn [fst snd] in *. subst ty. lia.
    - assert (Hg' : ring_distance (loops_v S) v y y' > 0) by lia.
      destruct (HV Hg') as (d & [tx ty] & H1 & H2 & H3). exists d, (tx, ty). split; auto.
      cbn [fst snd] in *. subst tx. lia.
  Qed.

  (** Every step can be taken back. *)
  Lemma neighbour_back : forall a d t, on_board h v a -> sq_neighbour S h v a d = Some t ->
    exists d', sq_neighbour S h v t d' = Some a.
  Proof.
    intros [x y] d t [Hx Hy] H. cbn [fst snd] in *.
    destruct d as [[]|[]];
      rewrite ?sq_neighbour_fwd_h, ?sq_neighbour_fwd_v, ?sq_neighbour_bwd_h, ?sq_neighbour_bwd_v
        in H by auto.
    - exists (Backward Horizontal). destruct (Z.ltb_spec (x + 1) h).
      + injection H as <-. rewrite sq_neighbour_bwd_h by lia.
        replace (x + 1 =? 0) with false by lia. apply some_node; lia.
      + destruct (loops_h S) eqn:El; [|discriminate]. injection H as <-.
        rewrite sq_neighbour_bwd_h by lia. rewrite El. cbn. apply some_node; lia.
    - exists (Backward Vertical). destruct (Z.ltb_spec (y + 1) v).
      + injection H as <-. rewrite sq_neighbour_bwd_v by lia.
        replace (y + 1 =? 0) with false by lia. apply some_node; lia.
      + destruct (loops_v S) eqn:El; [|discriminate]. injection H as <-.
        rewrite sq_neighbour_bwd_v by lia. rewrite El. cbn. apply some_node; lia.
    - exists (Foward Horizontal). destruct (Z.eqb_spec x 0).
      + destruct (loops_h S) eqn:El; [|discriminate]. injection H as <-.
        rewrite sq_neighbour_fwd_h by lia. rewrite El. replace (h - 1 + 1 <? h) with false by lia.
        apply some_node; lia.
      + injection H as <-. rewrite sq_neighbour_fwd_h by lia.
        replace (x - 1 + 1 <? h) with true by lia. apply some_node; lia.
    - exists (Foward Vertical). destruct (Z.eqb_spec y 0).
      + destruct (loops_v S) eqn:El; [|discriminate]. injection H as <-.
        rewrite sq_neighbour_fwd_v by lia. rewrite El. replace (v - 1 + 1 <? v) with false by lia.
        apply some_node; lia.
      + injection H as <-. rewrite sq_neighbour_fwd_v by lia.
        replace (y - 1 + 1 <? v) with true by lia. apply some_node; lia.
  Qed.

  Lemma path_bound : forall k a b, SqPath m g k a b -> on_board h v a -> on_board h v b ->
    dist a b <= Z.of_nat k.
  Proof using SZ FX B.
    induction 1 as [a|k a b c l HD Hin HP IH]; intros Ha Hc; [rewrite dist_zero by auto; lia|].
    destruct (c44 SZ FX B a Ha) as [HD' _]. rewrite (Drains_det _ _ _ _ HD HD') in Hin.
    apply in_neighbours in Hin. destruct Hin as (d & Hd).
    pose proof (neighbour_on_board _ _ _ _ _ Ha Hd) as Hb.
    pose proof (dist_step a d b c Ha Hc Hd). specialize (IH Hb Hc). lia.
  Qed.

  Lemma path_exists : forall k a b, on_board h v a -> on_board h v b -> dist a b = Z.of_nat k ->
    SqPath m g k a b.
  Proof using SZ FX B.
    induction k as [|k IH]; intros a b Ha Hb Hd.
    - rewrite (dist_same a b Ha Hb Hd). constructor.
    - destruct (dist_desc a b Ha Hb ltac:(lia)) as (d & t & Ht & Hm).
      pose proof (dist_step a d t b Ha Hb Ht).
      apply (sq_path_step m g k a t b _ (proj1 (c44 SZ FX B a Ha))); [apply in_neighbours; eauto|].
      apply IH; [exact (neighbour_on_board _ _ _ _ _ Ha Ht)|auto|lia].
  Qed.

  Lemma sq_shortest_dist : forall a b, on_board h v a -> on_board h v b ->
    sq_shortest m g a b (dist a b).
  Proof using SZ FX B.
    intros a b Ha Hb. pose proof (dist_pos a b Ha Hb). split.
    - exists (Z.to_nat (dist a b)). split; [|lia]. apply path_exists; auto. lia.
    - intros k HP. apply path_bound; auto.
  Qed.

  Lemma sq_shortest_unique : forall a b n k, sq_shortest m g a b n -> sq_shortest m g a b k -> n = k.
  Proof.
    intros a b n k ((i & W1 & <-) & H1) ((j & W2 & <-) & H2).
    apply H1 in W2. apply H2 in W1. lia.
  Qed.

  (** ** Searches *)

  Notation bfs := (bfs_next (sg_neighbors g) next svm_visit).
  Notation dfs := (dfs_next (sg_neighbors g) next svm_visit svm_is_visited).
  Notation VR := (SVM (h := h) (v := v)).

  Lemma svr_ext : forall vm M M', VR vm M -> (forall c, In c M <-> In c M') -> VR vm M'.
  Proof.
    intros vm M M' (H1 & H2) HM. split; auto.
    intros x Hx. destruct (H2 x Hx) as (b & B1 & B2 & B3). exists b. split; auto. split; auto.
    intros y Hy. rewrite B3 by auto. apply eq_true_iff_eq. rewrite !mem_true. apply HM.
  Qed.

  Lemma svr_visit : forall vm M c, VR vm M -> In c (sq_nodes h v) ->
    exists b vm', svm_visit vm c = Ok (b, vm') /\ (b = true <-> ~ In c M) /\ VR vm' (c :: M).
  Proof using g.
    intros vm M c HV Hc. pose proof (proj1 (sq_in_nodes c) Hc) as Hob.
    destruct (svm_op (g := g) vm M (Visit c) HV) as (vm' & E1 & E2); [exact Hob|].
    cbn [sq_visit_op visit_spec] in *. rewrite (proj2 (mem_true _ _) Hc) in *. cbn [fst snd] in *.
    destruct (svm_visit vm c) as [[b vm1]|]; [|discriminate]. cbn [bind] in E1.
    injection E1 as -> ->. exists (negb (mem c M)), vm'. split; auto. split; auto.
    rewrite negb_true_iff, <- mem_true. destruct (mem c M); split; congruence.
  Qed.

  Lemma svr_visited : forall vm M c, VR vm M -> In c (sq_nodes h v) ->
    exists b, svm_is_visited vm c = Ok b /\ (b = true <-> In c M).
  Proof using g.
    intros vm M c HV Hc. pose proof (proj1 (sq_in_nodes c) Hc) as Hob.
    destruct (svm_op (g := g) vm M (IsVisited c) HV) as (vm' & E1 & E2); [exact Hob|].
    cbn [sq_visit_op visit_spec fst snd] in *.
    destruct (svm_is_visited vm c) as [b|]; [|discriminate]. cbn [bind] in E1.
    injection E1 as -> _. exists (mem c M). split; auto. apply mem_true.
  Qed.

  Lemma sq_degree : forall c, Z.of_nat (length (sq_neighbours S h v c)) + 1 < 2 ^ 72.
  Proof.
    intros c. enough (length (sq_neighbours S h v c) <= 4)%nat by lia.
    unfold sq_neighbours, sq_directions. cbn [flat_map]. rewrite !app_length.
    repeat match goal with |- context [sq_neighbour S h v c ?d] =>
      destruct (sq_neighbour S h v c d) end; cbn [length]; lia.
  Qed.

  Lemma c66 : forall start, on_board h v start ->
    (exists it l, bfs_new svm_visit (sg_visit_map g) start = Ok it /\ Drains bfs it l /\
       Permutation l (sq_nodes h v) /\ hd_error l = Some start /\
       forall l1 a l2 b l3 na nb, l = l1 ++ a :: l2 ++ b :: l3 ->
         sq_shortest m g start a na -> sq_shortest m g start b nb -> na <= nb) /\
    (exists l, Drains dfs (dfs_new (sg_visit_map g) start) l /\
       Permutation l (sq_nodes h v) /\ hd_error l = Some start /\
       forall l1 c l2, l = l1 ++ c :: l2 -> l1 <> [] ->
         exists p ln, In p l1 /\ Drains (next p) (sg_neighbors g p) ln /\ In c ln).
  Proof using SZ FX B.
    intros start Hs.
    assert (Hnb : forall c, In c (sq_nodes h v) ->
      Drains (next c) (sg_neighbors g c) (sq_neighbours S h v c)).
    { intros c Hc. apply (c44 SZ FX B c). apply (sq_in_nodes c). auto. }
    set (f := fun c => Z.max 0 (dist c start)).
    assert (Hf : forall c, In c (sq_nodes h v) -> f c = dist c start).
    { intros c Hc. apply sq_in_nodes in Hc. pose proof (dist_pos c start Hc Hs). unfold f. lia. }
    assert (Hin : forall c c', In c (sq_nodes h v) -> In c' (sq_neighbours S h v c) ->
      In c' (sq_nodes h v)).
    { intros c c' Hc H. apply sq_in_nodes in Hc. apply in_neighbours in H. destruct H as (d & Hd).
      apply sq_in_nodes. exact (neighbour_on_board _ _ _ _ _ Hc Hd). }
    assert (Hsi : In start (sq_nodes h v)) by (apply sq_in_nodes; auto).
    assert (f_start : f start = 0) by (rewrite Hf, dist_zero by auto; reflexivity).
    assert (f_pos : forall c, 0 <= f c) by (intros c; unfold f; lia).
    assert (f_zero : forall c, In c (sq_nodes h v) -> f c = 0 -> c = start).
    { intros c Hc H. rewrite Hf in H by auto. apply sq_in_nodes in Hc. apply dist_same; auto. }
    assert (f_step : forall c c', In c (sq_nodes h v) -> In c' (sq_neighbours S h v c) ->
      f c' <= f c + 1).
    { intros c c' Hc H. rewrite (Hf c Hc), (Hf c' (Hin c c' Hc H)). apply sq_in_nodes in Hc.
      apply in_neighbours in H. destruct H as (d & Hd). apply (dist_step c d c' start Hc Hs Hd). }
    assert (f_desc : forall c, In c (sq_nodes h v) -> 0 < f c ->
      exists p, In p (sq_nodes h v) /\ In c (sq_neighbours S h v p) /\ f p <= f c - 1).
    { intros c Hc H. rewrite (Hf c Hc) in *. pose proof (proj1 (sq_in_nodes c) Hc) as Hob.
      destruct (dist_desc c start Hob Hs H) as (d & p & Hd & Hp). exists p.
      pose proof (neighbour_on_board _ _ _ _ _ Hob Hd) as Hpb.
      assert (Hpi : In p (sq_nodes h v)) by (apply sq_in_nodes; auto).
      split; auto. rewrite (Hf p Hpi). split; auto.
      destruct (neighbour_back c d p Hob Hd) as (d' & Hd'). apply in_neighbours. eauto. }
    assert (HND : NoDup (sq_nodes h v)).
    { apply sq_nodes_nodup. }
    split.
    - destruct (bfs_all (sg_neighbors g) next svm_visit cell_dec (sq_nodes h v)
        (sq_neighbours S h v) VR Hnb (fun c _ => sq_degree c) Hin svr_visit svr_ext start Hsi f
        f_start f_pos f_zero f_step f_desc (sg_visit_map g) (svm_fresh SZ B))
        as (it & l & E0 & HDr & HN & Hl & Hsort & l' & Hl').
      exists it, l. split; auto. split; auto. split; [apply NoDup_Permutation; auto|].
      split; [rewrite Hl'; reflexivity|].
      intros l1 a l2 b l3 na nb Eq Ha Hb.
      assert (Hai : In a (sq_nodes h v)).
      { apply Hl. rewrite Eq. apply in_or_app. right. left; auto. }
      assert (Hbi : In b (sq_nodes h v)).
      { apply Hl. rewrite Eq. apply in_or_app. right. right. apply in_or_app. right. left; auto. }
      rewrite Eq in Hsort. apply sorted_split in Hsort. unfold le_f in Hsort.
      rewrite (Hf a Hai), (Hf b Hbi), (dist_sym a), (dist_sym b) in Hsort.
      apply sq_in_nodes in Hai. apply sq_in_nodes in Hbi.
      rewrite (sq_shortest_unique _ _ _ _ Ha (sq_shortest_dist start a Hs Hai)).
      rewrite (sq_shortest_unique _ _ _ _ Hb (sq_shortest_dist start b Hs Hbi)). exact Hsort.
    - destruct (dfs_all (sg_neighbors g) next svm_visit svm_is_visited cell_dec (sq_nodes h v)
        (sq_neighbours S h v) VR Hnb (fun c _ => sq_degree c) Hin svr_visit svr_visited svr_ext
        start Hsi f f_start f_pos f_zero f_step f_desc (sg_visit_map g) (svm_fresh SZ B))
        as (l & HDr & HN & Hl & Hgrown).
      exists l. split; auto. split; [apply NoDup_Permutation; auto|]. split.
      + destruct l as [|c l]; [exfalso; apply (Hl start); auto|].
        destruct (Hgrown [] c l eq_refl) as [[_ ->]|(p & [] & _)]. reflexivity.
      + intros l1 c l2 Eq Hne. destruct (Hgrown l1 c l2 Eq) as [[-> _]|(p & Hp & Hc)]; [congruence|].
        exists p, (sq_neighbours S h v p). split; auto. split; auto. apply Hnb.
        apply Hl. rewrite Eq. apply in_or_app. auto.
  Qed.
End Search.
