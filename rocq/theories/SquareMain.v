(** * SquareMain: the lemmas behind the theorems about [SquareGraph]. *)

From Verif Require Import Machine Store Axes Shapes Spec SquareGraph SpecSquare Basics GeoProofs RepProofs
  IterProofs VisitProofs CountProofs SquareProofs SquareIter.
From Coq Require Import ZifyBool ZifyNat.
Ltac Zify.zify_post_hook ::= Z.div_mod_to_equations.

(** ** Lists *)

Lemma split_first : forall X (A B l1 l2 : list X) x, A ++ B = l1 ++ x :: l2 -> ~ In x B ->
  exists r, A = l1 ++ x :: r.
Proof.
  intros X A B l1 l2 x H Hn. apply app_eq_app in H. destruct H as (l & [[H1 H2]|[H1 H2]]).
  - destruct l as [|y l]; cbn in H2.
    + exfalso. apply Hn. rewrite <- H2. left. auto.
    + injection H2 as <- H2. exists l. auto.
  - exfalso. apply Hn. rewrite H2. apply in_or_app. right. left. auto.
Qed.

Lemma split_second : forall X (A B l1 l2 : list X) x, A ++ B = l1 ++ x :: l2 -> ~ In x A ->
  exists r, l1 = A ++ r /\ B = r ++ x :: l2.
Proof.
  intros X A B l1 l2 x H Hn. apply app_eq_app in H. destruct H as (l & [[H1 H2]|[H1 H2]]).
  - destruct l as [|y l]; cbn in H2.
    + exists []. rewrite app_nil_r in *. auto.
    + injection H2 as <- H2. exfalso. apply Hn. rewrite H1. apply in_or_app. right. left. auto.
  - exists l. auto.
Qed.

Lemma split_map : forall X Y (f : X -> Y) l l1 x r, (forall a b, f a = f b -> a = b) ->
  map f l = l1 ++ f x :: r ->
  exists k, l1 = map f (firstn k l) /\ nth_error l k = Some x.
Proof.
  intros X Y f l l1 x r Hinj H. apply map_eq_app in H. destruct H as (a & b & -> & <- & H).
  apply map_eq_cons in H. destruct H as (x' & b' & -> & Hx & _). apply Hinj in Hx. subst x'.
  exists (length a). split.
  - rewrite firstn_app, Nat.sub_diag, firstn_all, app_nil_r. reflexivity.
  - rewrite nth_error_app2, Nat.sub_diag by lia. reflexivity.
Qed.

Lemma node_position : forall h v i x y, nth_error (sq_nodes h v) i = Some (x, y) ->
  i = Z.to_nat (x * v + y) /\ 0 <= x < h /\ 0 <= y < v.
Proof.
  intros h v i x y H. assert (Hi : (i < length (sq_nodes h v))%nat)
    by (apply nth_error_Some; congruence).
  assert (Hv : 0 < v /\ 0 < h).
  { assert (Hin : In (x, y) (sq_nodes h v)) by (eapply nth_error_In; eauto).
    apply sq_in_nodes in Hin. destruct Hin. cbn [fst snd] in *. lia. }
  unfold sq_nodes in Hi. rewrite board_length in Hi by lia.
  assert (Hi' : Z.of_nat i < h * v) by nia.
  assert (Hx : 0 <= Z.of_nat i / v < h).
  { split; [apply Z.div_pos; lia|]. apply Z.div_lt_upper_bound; lia. }
  assert (Hy : 0 <= Z.of_nat i mod v < v) by (apply Z.mod_pos_bound; lia).
  pose proof (sq_nodes_nth _ _ Hx Hy) as Hn.
  assert (Hp : Z.to_nat (Z.of_nat i / v * v + Z.of_nat i mod v) = i).
  { pose proof (Z.div_mod (Z.of_nat i) v). lia. }
  rewrite Hp, H in Hn. injection Hn as -> ->. rewrite Hp. auto.
Qed.

Lemma sq_nodes_nodup : forall h v, NoDup (sq_nodes h v).
Proof.
  intros h v. apply NoDup_nth_error. intros i j Hi H.
  destruct (nth_error (sq_nodes h v) i) as [[x y]|] eqn:E; [|apply nth_error_Some in Hi; congruence].
  symmetry in H. apply node_position in H, E. destruct H, E. congruence.
Qed.

(** ** C40: construction *)

Section New.
  Context {N E : Type} {ix : IxType} {S : LoopShape}.
  Notation graph := (SquareGraph N E ix S).

  Section Stateful.
    Context {St : Type} (fn : St -> NodeIndex -> N * St) (fe : St -> NodeIndex -> SqAxis -> E * St).

    Lemma c40 : forall m h v st, sq_size S h v ->
      exists g : graph, sg_new_with m h v (node_fun fn) (edge_fun fe) st
          = Ok (g, state_after fn fe (sq_calls S h v) st) /\
        horizontal_node_count g = h /\ vertical_node_count g = v /\ sg_node_count g = h * v /\
        nrows (sg_horizontal g) = edge_columns S h /\ ncols (sg_horizontal g) = v /\
        nrows (sg_vertical g) = h /\ ncols (sg_vertical g) = edge_rows S v /\
        (forall l1 n l2, sq_calls S h v = l1 ++ CallNode n :: l2 ->
           sg_node_weight g n = Some (fst (fn (state_after fn fe l1 st) n))) /\
        (forall l1 n a l2, sq_calls S h v = l1 ++ CallEdge n a :: l2 ->
           sg_edge_weight g (n, a) = Some (fst (fe (state_after fn fe l1 st) n a))).
    Proof.
      intros m h v st HS. destruct (new_with_rep (ix := ix) fn fe m h v st HS) as (g & Hg & R).
      exists g. split; [exact Hg|]. destruct (counts g _ _ R) as (C1 & C2 & C3 & _).
      pose proof R as [_ (W1 & W2 & _) (W3 & W4 & _) _ _ _].
      do 7 (split; [assumption|]). split.
      - intros l1 [x y] l2 H. unfold sq_calls in H. apply split_first in H.
        2:{ rewrite in_app_iff, !in_map_iff. intros [(k & Hk & _)|(k & Hk & _)]; discriminate. }
        destruct H as (r & H). apply split_map in H; [|intros a b Hab; injection Hab; auto].
        destruct H as (k & -> & Hk). apply node_position in Hk. destruct Hk as (-> & Hx & Hy).
        rewrite (rep_node h v g _ _ (x, y) R) by (split; auto). reflexivity.
      - intros l1 [x y] a l2 H. unfold sq_calls in H. apply split_second in H.
        2:{ rewrite in_map_iff. intros (k & Hk & _). discriminate. }
        destruct H as (r & -> & H). destruct a.
        + apply split_first in H.
          2:{ rewrite in_map_iff. intros (k & Hk & _). discriminate. }
          destruct H as (r' & H).
          apply (split_map _ _ (fun n => CallEdge n Horizontal)) in H; [|intros a b Hab; injection Hab; auto].
          destruct H as (k & -> & Hk). apply node_position in Hk. destruct Hk as (-> & Hx & Hy).
          etransitivity; [apply (rep_edge h v g _ _ ((x, y), Horizontal) R); apply edge_exists_h; auto|].
          rewrite (state_after_app fn fe). reflexivity.
        + apply split_second in H.
          2:{ rewrite in_map_iff. intros (k & Hk & _). discriminate. }
          destruct H as (r' & -> & H).
          apply (split_map _ _ (fun n => CallEdge n Vertical)) in H; [|intros a b Hab; injection Hab; auto].
          destruct H as (k & -> & Hk). apply node_position in Hk. destruct Hk as (-> & Hx & Hy).
          etransitivity; [apply (rep_edge h v g _ _ ((x, y), Vertical) R); apply edge_exists_v; auto|].
          rewrite !(state_after_app fn fe). reflexivity.
    Qed.
  End Stateful.

  Lemma c40_calls : forall h v,
    NoDup (sq_calls S h v) /\
    (forall n, In (CallNode n) (sq_calls S h v) <-> on_board h v n) /\
    (forall n a, In (CallEdge n a) (sq_calls S h v) <-> sq_edge_exists S h v (n, a)).
  Proof.
    intros h v. unfold sq_calls. split; [|split].
    - apply NoDup_app; [|apply NoDup_app|].
      + apply FinFun.Injective_map_NoDup; [intros a b H; injection H; auto|apply sq_nodes_nodup].
      + apply FinFun.Injective_map_NoDup; [intros a b H; injection H; auto|apply sq_nodes_nodup].
      + apply FinFun.Injective_map_NoDup; [intros a b H; injection H; auto|apply sq_nodes_nodup].
      + intros x. rewrite !in_map_iff. intros (k & <- & _) (k' & H & _). discriminate.
      + intros x. rewrite in_app_iff, !in_map_iff.
        intros (k & <- & _) [(k' & H & _)|(k' & H & _)]; discriminate.
    - intros n. rewrite !in_app_iff, !in_map_iff. split.
      + intros [(k & H & Hk)|[(k & H & Hk)|(k & H & Hk)]]; try discriminate.
        injection H as ->. apply sq_in_nodes. auto.
      + intros H. left. exists n. split; auto. apply sq_in_nodes. auto.
    - intros [x y] a. rewrite !in_app_iff, !in_map_iff. destruct a.
      + rewrite edge_exists_h. split.
        * intros [(k & H & Hk)|[(k & H & Hk)|(k & H & Hk)]]; try discriminate.
          injection H as ->. apply sq_in_nodes in Hk. exact Hk.
        * intros H. right. left. exists (x, y). split; auto. apply sq_in_nodes. exact H.
      + rewrite edge_exists_v. split.
        * intros [(k & H & Hk)|[(k & H & Hk)|(k & H & Hk)]]; try discriminate.
          injection H as ->. apply sq_in_nodes in Hk. exact Hk.
        * intros H. right. right. exists (x, y). split; auto. apply sq_in_nodes. exact H.
  Qed.

  (** A graph is determined by its weights. *)
  Lemma array_ext : forall X (a b : Array2 X) h v, array_wf a h v -> array_wf b h v ->
    (forall x y, 0 <= x < h -> 0 <= y < v -> array_get a x y = array_get b x y) -> 0 <= h -> 0 <= v -> a = b.
  Proof.
    intros X [r1 c1 l1] [r2 c2 l2] h v A B H Hh Hv.
    pose proof A as (A1 & A2 & A3). pose proof B as (B1 & B2 & B3). cbn [nrows ncols cells] in *. subst.
    f_equal. apply nth_error_ext. intros i.
    destruct (Z_lt_le_dec (Z.of_nat i) (h * v)) as [Hlt|Hge].
    - assert (Hv' : 0 < v) by nia. set (x := Z.of_nat i / v). set (y := Z.of_nat i mod v).
      assert (Hx : 0 <= x < h).
      { unfold x. split; [apply Z.div_pos; lia|]. apply Z.div_lt_upper_bound; lia. }
      assert (Hy : 0 <= y < v) by (apply Z.mod_pos_bound; lia).
      assert (Hi : i = Z.to_nat (x * v + y)).
      { unfold x, y. pose proof (Z.div_mod (Z.of_nat i) v). lia. }
      specialize (H x y Hx Hy). rewrite (array_get_ok _ _ _ _ x y A Hx Hy), (array_get_ok _ _ _ _ x y B Hx Hy) in H.
      cbn [cells] in H. rewrite Hi. exact H.
    - transitivity (@None X); [|symmetry]; apply nth_error_None; lia.
  Qed.

  Lemma c40_pure : forall St (fn : St -> NodeIndex -> N * St) fe m h v st (g : graph) st',
    sq_size S h v -> sg_new_with m h v (node_fun fn) (edge_fun fe) st = Ok (g, st') ->
    exists nf ef, SqBuilt m h v g nf ef.
  Proof.
    intros St fn fe m h v st g st' HS H.
    destruct (new_with_rep (ix := ix) fn fe m h v st HS) as (g' & Hg & R). rewrite Hg in H. injection H as <- _.
    set (nf := node_val fn fe h v st) in *. set (ef := edge_val fn fe h v st) in *.
    exists nf, ef. constructor.
    destruct (new_with_rep (ix := ix) (fun u n => (nf n, u)) (fun u n a => (ef (n, a), u)) m h v tt HS) as (g2 & Hg2 & R2).
    change (NodeIndex -> N) with (NodeIndex -> N) in nf.
    replace g' with g2; [rewrite Hg2; f_equal; f_equal; destruct (state_after _ _ _ tt); reflexivity|].
    assert (R3 : SqRep h v g2 nf ef).
    { eapply rep_ext; [exact R2| |]; [reflexivity|]. intros [n []] _; reflexivity. }
    clear - R R3 HS. pose proof (sizes HS) as HZ. destruct R as [A1 A2 A3 A4 A5 A6], R3 as [B1 B2 B3 B4 B5 B6].
    assert (HC : 0 <= edge_columns S h) by (unfold edge_columns; destruct (loops_h S); lia).
    assert (HR : 0 <= edge_rows S v).
    { destruct HS as (_ & HV & _). unfold edge_rows. destruct (loops_v S); lia. }
    destruct g2 as [n2 h2 v2], g' as [n1 h1 v1]. cbn [sg_nodes sg_horizontal sg_vertical] in *. f_equal.
    - eapply array_ext; [exact B1|exact A1| |lia|lia]. intros x y Hx Hy. rewrite A4, B4 by auto. reflexivity.
    - eapply array_ext; [exact B2|exact A2| |lia|lia]. intros x y Hx Hy. rewrite A5, B5 by auto. reflexivity.
    - eapply array_ext; [exact B3|exact A3| |lia|lia]. intros x y Hx Hy. rewrite A6, B6 by auto. reflexivity.
  Qed.

  Lemma c40_default : forall m h v (dn : N) (de : E), sq_size S h v ->
    exists g : graph, sg_new m h v dn de = Ok g /\ SqBuilt m h v g (fun _ => dn) (fun _ => de).
  Proof.
    intros m h v dn de HS.
    destruct (new_with_rep (ix := ix) (fun u n => (dn, u)) (fun u n a => (de, u)) m h v tt HS) as (g & Hg & _).
    exists g. unfold sg_new. unfold node_fun, edge_fun in Hg. rewrite Hg. split; auto.
    constructor. unfold node_fun, edge_fun. rewrite Hg. f_equal. f_equal. destruct (state_after _ _ _ tt). reflexivity.
  Qed.
End New.

(** ** C41-C47 *)

Section Main.
  Context {N E : Type} {ix : IxType} {S : LoopShape} {m : mode} {h v : Z}
    (SZ : sq_size S h v) (FX : sq_index_fits ix h v).
  Context {g : SquareGraph N E ix S} {nf : NodeIndex -> N} {ef : EdgeIndex -> E}
    (B : SqBuilt m h v g nf ef).
  Let R : SqRep h v g nf ef := built_rep _ _ _ _ _ _ SZ B.

  Lemma c41_node : forall n, (on_board h v n -> sg_node_weight g n = Some (nf n)) /\
    (~ on_board h v n -> sg_node_weight g n = None).
  Proof using SZ B. intros n. split; [apply (rep_node _ _ _ _ _ _ R)|apply (rep_node_out _ _ _ _ _ _ R)]. Qed.

  Lemma c41_edge : forall e, (sq_edge_exists S h v e -> sg_edge_weight g e = Some (ef e)) /\
    (~ sq_edge_exists S h v e -> sg_edge_weight g e = None).
  Proof using SZ B. intros e. split; [apply (rep_edge _ _ _ _ _ _ R)|apply (rep_edge_out _ _ _ _ _ _ R)]. Qed.

  Lemma c42 : sg_node_bound g = h * v /\ sg_node_count g = h * v /\
    (forall n, on_board h v n -> exists i, sg_to_index m g n = Ok i /\ 0 <= i < sg_node_bound g /\
       sg_from_index g i = Ok n) /\
    (forall i, 0 <= i < sg_node_bound g -> exists n, sg_from_index g i = Ok n /\ on_board h v n /\
       sg_to_index m g n = Ok i).
  Proof using SZ FX B.
    destruct (counts g nf ef R) as (C1 & C2 & C3 & C4). rewrite C4. split; auto. split; auto. split.
    - intros [x y] [Hx Hy]. cbn [fst snd] in *. exists (x * v + y).
      rewrite (to_index_ok SZ g nf ef) by auto. split; auto.
      assert (Hi : 0 <= x * v + y < h * v) by nia. split; auto.
      destruct (from_index_ok SZ FX g nf ef _ R Hi) as (-> & _).
      rewrite Z.div_add_l, Z.div_small, Z.add_0_r by lia.
      rewrite Z.add_comm, Z.mod_add, Z.mod_small by lia. reflexivity.
    - intros i Hi. destruct (from_index_ok SZ FX g nf ef _ R Hi) as (E1 & H1 & H2).
      exists (i / v, i mod v). split; auto. split; [split; auto|].
      rewrite (to_index_ok SZ g nf ef) by auto. f_equal. pose proof (Z.div_mod i v). lia.
  Qed.

  (** ** C43 *)

  Lemma c43_identifiers : 1 <= v ->
    Drains (sg_node_indices_next (ix := ix) m) (sg_node_identifiers g) (sq_nodes h v) /\
    (forall l it, Consumed (sg_node_indices_next (ix := ix) m) (sg_node_identifiers g) l it ->
      exists rest, sq_nodes h v = l ++ rest /\
        sg_node_indices_size_hint m it = Ok (Z.of_nat (length rest), Some (Z.of_nat (length rest)))).
  Proof using SZ FX B.
    intros Hv. destruct (counts g nf ef R) as (C1 & C2 & _). unfold sg_node_identifiers. rewrite C1, C2.
    pose proof (ni_start SZ) as H0. replace (1 <=? v) with true in H0 by lia. split.
    - eapply IterInv_drains; [apply (ni_inv SZ FX)|exact H0].
    - intros l it HC. destruct (IterInv_consumed _ _ _ _ _ _ _ (ni_inv SZ FX) HC _ H0) as (rest & H1 & H2).
      exists rest. split; auto. apply (ni_size_hint SZ); auto.
  Qed.

  Lemma c43_order : NoDup (sq_nodes h v) /\ (forall n, In n (sq_nodes h v) <-> on_board h v n) /\
    (forall i n, nth_error (sq_nodes h v) i = Some n -> sg_to_index m g n = Ok (Z.of_nat i)).
  Proof using SZ B.
    split; [apply sq_nodes_nodup|]. split; [intros n; apply sq_in_nodes|].
    intros i [x y] Hn. apply node_position in Hn. destruct Hn as (-> & Hx & Hy).
    rewrite (to_index_ok SZ g nf ef) by auto. f_equal. nia.
  Qed.

  Lemma c43_references :
    Drains (sg_node_references_next (ix := ix) m) (sg_node_references g)
      (map (fun n => (n, nf n)) (sq_nodes h v)) /\
    (forall l it, Consumed (sg_node_references_next (ix := ix) m) (sg_node_references g) l it ->
      exists rest, map (fun n => (n, nf n)) (sq_nodes h v) = l ++ rest /\
        sg_node_references_size_hint it = (Z.of_nat (length rest), Some (Z.of_nat (length rest)))).
  Proof using SZ FX B.
    pose proof (nr_start SZ g nf ef R) as H0. split.
    - eapply IterInv_drains; [apply (nr_inv SZ FX nf)|exact H0].
    - intros l it HC. destruct (IterInv_consumed _ _ _ _ _ _ _ (nr_inv SZ FX nf) HC _ H0) as (rest & H1 & H2).
      exists rest. split; auto. eapply nr_size_hint; eauto.
  Qed.

  (** On a board without rows the iterator makes up nodes. *)
  Lemma c43_no_rows : v = 0 ->
    Drains (sg_node_indices_next (ix := ix) m) (sg_node_identifiers g)
      (map (fun x => (1 + x, 0)) (zrange (h - 1))).
  Proof using SZ FX B.
    intros Hv. destruct (counts g nf ef R) as (C1 & C2 & _). unfold sg_node_identifiers. rewrite C1, C2.
    pose proof (ni_start SZ) as H0. replace (1 <=? v) with false in H0 by lia.
    eapply IterInv_drains; [apply (ni_inv SZ FX)|exact H0].
  Qed.

  (** ** C44 *)

  Lemma c44 : forall n, on_board h v n ->
    Drains (sg_neighbors_next (ix := ix) (S := S) m) (sg_neighbors g n) (sq_neighbours S h v n) /\
    (forall l it, Consumed (sg_neighbors_next (ix := ix) (S := S) m) (sg_neighbors g n) l it ->
      exists rest u, sq_neighbours S h v n = l ++ rest /\
        sg_neighbors_size_hint m it = Ok (0, Some u) /\ Z.of_nat (length rest) <= u).
  Proof using SZ FX B.
    intros n Hn. pose proof (sq_neighbors_start g nf ef n R) as H0. split.
    - eapply IterInv_drains; [apply (sq_neighbors_inv SZ FX n Hn)|exact H0].
    - intros l it HC.
      destruct (IterInv_consumed _ _ _ _ _ _ _ (sq_neighbors_inv SZ FX n Hn) HC _ H0) as (rest & H1 & H2).
      apply scan_len in H2. destruct H2 as (k & -> & Hk & HL). exists rest, (4 - k). split; auto.
      unfold sg_neighbors_size_hint. cbn [nb_state]. rewrite usize_sub_ok by (rewrite USIZE_pow; lia). auto.
  Qed.

  (** ** C45 *)

  Lemma c45 : forall n, on_board h v n -> exists l,
    Drains (sg_edges_next m g) (sg_edges g n) l /\
    map (sq_view ix S m) l = map Ok (sq_edges_of S h v ef n) /\
    (forall l1 it, Consumed (sg_edges_next m g) (sg_edges g n) l1 it ->
      exists rest u, l = l1 ++ rest /\
        sg_edges_size_hint m it = Ok (0, Some u) /\ Z.of_nat (length rest) <= u).
  Proof using SZ FX B.
    intros n Hn. eexists. split; [|split; [apply (view_edges SZ FX); exact Hn|]].
    - eapply IterInv_drains; [apply (sq_edges_inv SZ FX g nf ef n R Hn)|]. apply scan_start.
    - intros l1 it HC.
      destruct (IterInv_consumed _ _ _ _ _ _ _ (sq_edges_inv SZ FX g nf ef n R Hn) HC _ (scan_start _ _))
        as (rest & H1 & H2).
      apply scan_len in H2. destruct H2 as (k & -> & Hk & HL). exists rest, (4 - k). split; auto.
      unfold sg_edges_size_hint. cbn [se_state]. rewrite usize_sub_ok by (rewrite USIZE_pow; lia). auto.
  Qed.

  Lemma edge_name_exists : forall n d t, on_board h v n -> sq_neighbour S h v n d = Some t ->
    sq_edge_exists S h v (sq_edge_name n d t).
  Proof.
    intros n d t Hn Ht. destruct d as [a|a]; cbn [sq_edge_name].
    - split; auto. cbn [fst snd]. congruence.
    - split; [eapply neighbour_on_board; eauto|]. cbn [fst snd].
      rewrite (proj1 (neighbour_back n a t Hn) Ht). discriminate.
  Qed.

  Lemma in_edges_of : forall n x, In x (sq_edges_of S h v ef n) <->
    exists d, sq_edge_view S h v ef n d = Some x.
  Proof.
    intros n x. unfold sq_edges_of. rewrite in_flat_map. split.
    - intros (d & _ & H). exists d. destruct (sq_edge_view S h v ef n d); [|destruct H].
      destruct H as [->|[]]. auto.
    - intros (d & H). exists d. split; [destruct d as [[]|[]]; cbn; tauto|]. rewrite H. left. auto.
  Qed.

  Lemma c45_weights : forall n id w s t, on_board h v n -> In (id, w, s, t) (sq_edges_of S h v ef n) ->
    s = n /\ sg_edge_weight g id = Some w.
  Proof using SZ B.
    intros n id w s t Hn H. apply in_edges_of in H. destruct H as (d & H). unfold sq_edge_view in H.
    destruct (sq_neighbour S h v n d) as [t'|] eqn:Et; [|discriminate]. injection H as <- <- <- <-.
    split; auto. apply c41_edge. apply edge_name_exists; auto.
  Qed.

  Lemma c45_back : forall n id w t, on_board h v n -> In (id, w, n, t) (sq_edges_of S h v ef n) ->
    on_board h v t /\ In (id, w, t, n) (sq_edges_of S h v ef t).
  Proof.
    intros n id w t Hn H. apply in_edges_of in H. destruct H as (d & H). unfold sq_edge_view in H.
    destruct (sq_neighbour S h v n d) as [t'|] eqn:Et; [|discriminate]. injection H as <- <- ->.
    split; [eapply neighbour_on_board; eauto|]. apply in_edges_of. unfold sq_edge_view.
    destruct d as [a|a].
    - exists (Backward a). rewrite (proj2 (neighbour_back n a t Hn) Et). reflexivity.
    - exists (Foward a). rewrite (proj1 (neighbour_back n a t Hn) Et). reflexivity.
  Qed.

  Lemma c45_targets : forall n, map snd (sq_edges_of S h v ef n) = sq_neighbours S h v n.
  Proof.
    intros n. unfold sq_edges_of, sq_neighbours. rewrite map_flat_map'. apply flat_map_ext. intros d.
    unfold sq_edge_view. destruct (sq_neighbour S h v n d); reflexivity.
  Qed.

  (** ** C46 *)

  Lemma c46 : exists l, Drains (sg_edge_references_next m g) (sg_edge_references g) l /\
    map (sq_view ix S m) l = map Ok (sq_all_edges S h v ef).
  Proof using SZ FX B. apply (sq_edge_references_ok SZ FX g nf ef R). Qed.

  Lemma in_all_edges : forall x, In x (sq_all_edges S h v ef) <->
    exists n a, on_board h v n /\ sq_edge_view S h v ef n (Foward a) = Some x.
  Proof.
    intros x. unfold sq_all_edges. rewrite in_flat_map. split.
    - intros (n & Hn & H). apply in_flat_map in H. destruct H as (a & _ & H). exists n, a.
      split; [apply sq_in_nodes; auto|]. destruct (sq_edge_view S h v ef n (Foward a)); [|destruct H].
      destruct H as [->|[]]. auto.
    - intros (n & a & Hn & H). exists n. split; [apply sq_in_nodes; auto|]. apply in_flat_map.
      exists a. split; [destruct a; cbn; tauto|]. rewrite H. left. auto.
  Qed.

  Lemma c46_each : forall e w s t, In (e, w, s, t) (sq_all_edges S h v ef) <->
    sq_edge_exists S h v e /\ sg_edge_weight g e = Some w /\ s = fst e /\
    sq_neighbour S h v (fst e) (Foward (snd e)) = Some t.
  Proof using SZ B.
    intros e w s t. rewrite in_all_edges. unfold sq_edge_view. split.
    - intros (n & a & Hn & H). destruct (sq_neighbour S h v n (Foward a)) as [t'|] eqn:Et; [|discriminate].
      injection H as <- <- <- <-. cbn [sq_edge_name].
      assert (He : sq_edge_exists S h v (n, a)) by (split; auto; cbn [fst snd]; congruence).
      split; auto. split; [apply c41_edge; auto|]. auto.
    - intros (He & Hw & -> & Ht). destruct e as [n a]. cbn [fst snd] in *. exists n, a.
      split; [apply He|]. rewrite Ht. cbn [sq_edge_name]. rewrite (proj1 (c41_edge (n, a)) He) in Hw. injection Hw as <-. reflexivity.
  Qed.

  Lemma c46_once : NoDup (map view_id (sq_all_edges S h v ef)).
  Proof.
    unfold sq_all_edges. rewrite map_flat_map'.
    rewrite (flat_map_ext _ (fun n => flat_map (fun a => match sq_neighbour S h v n (Foward a) with
      Some _ => [(n, a)] | None => [] end) [Horizontal; Vertical])).
    2:{ intros n. rewrite map_flat_map'. apply flat_map_ext. intros a. unfold sq_edge_view.
        destruct (sq_neighbour S h v n (Foward a)); reflexivity. }
    apply NoDup_flat_map.
    - apply sq_nodes_nodup.
    - intros n _. cbn [flat_map]. destruct (sq_neighbour S h v n (Foward Horizontal)), (sq_neighbour S h v n (Foward Vertical));
        cbn [app]; repeat constructor; intros H; repeat (destruct H as [H|H]; try discriminate); destruct H.
    - intros n n' y _ _ H H'. apply in_flat_map in H, H'. destruct H as (a & _ & H), H' as (a' & _ & H').
      destruct (sq_neighbour S h v n (Foward a)); [|destruct H].
      destruct (sq_neighbour S h v n' (Foward a')); [|destruct H'].
      destruct H as [<-|[]]. destruct H' as [H'|[]]. congruence.
  Qed.

  Lemma c46_count : Z.of_nat (length (sq_all_edges S h v ef)) = edge_columns S h * v + h * edge_rows S v.
  Proof using SZ.
    pose proof (sizes SZ) as HS. destruct (Z.eq_dec v 0) as [Hv|Hv].
    { assert (E0 : sq_nodes h v = []).
      { destruct (sq_nodes h v) eqn:En; auto. pose proof (sq_nodes_length SZ) as HL. rewrite En in HL. cbn [length] in HL. lia. }
      unfold sq_all_edges. rewrite E0. cbn [flat_map length]. pose proof SZ as (_ & H2 & _).
      unfold edge_rows. destruct (loops_v S); nia. }
    unfold sq_all_edges, sq_nodes. rewrite length_board.
    rewrite (zsum_ext _ _ (fun x => v * (if loops_h S then 1 else b2z ((0 <=? x + 1) && (x + 1 <? h))) + edge_rows S v)).
    { rewrite zsum_plus, zsum_const by lia. replace (h * edge_rows S v) with (h * edge_rows S v) by lia.
      f_equal. unfold edge_columns. destruct (loops_h S).
      - rewrite zsum_const by lia. lia.
      - rewrite (zsum_ext _ _ (fun x => zsum v (fun _ => b2z ((0 <=? x + 1) && (x + 1 <? h))))).
        + rewrite zsum_swap. rewrite (zsum_ext _ _ (fun _ => h - 1)).
          * rewrite zsum_const by lia. lia.
          * intros y Hy. rewrite count_shift by lia. lia.
        + intros x Hx. rewrite zsum_const by lia. lia. }
    intros x Hx.
    rewrite (zsum_ext _ _ (fun y => (if loops_h S then 1 else b2z ((0 <=? x + 1) && (x + 1 <? h)))
      + (if loops_v S then 1 else b2z ((0 <=? y + 1) && (y + 1 <? v))))).
    - rewrite zsum_plus, zsum_const by lia. f_equal. unfold edge_rows. destruct (loops_v S).
      + rewrite zsum_const by lia. lia.
      + rewrite count_shift by lia. lia.
    - intros y Hy. cbn [flat_map]. unfold sq_edge_view.
      rewrite sq_neighbour_fwd_h, sq_neighbour_fwd_v by auto.
      replace ((0 <=? x + 1) && (x + 1 <? h)) with (x + 1 <? h) by lia.
      replace ((0 <=? y + 1) && (y + 1 <? v)) with (y + 1 <? v) by lia.
      unfold b2z. destruct (x + 1 <? h), (y + 1 <? v), (loops_h S), (loops_v S); reflexivity.
  Qed.

  (** ** C47, C48 *)

  Lemma get_edge_id_ok : forall n d, on_board h v n -> ~ forward_wrap S h v n d ->
    get_edge_id m g n d = Ok (match sq_neighbour S h v n d with
      | Some t => Some (sq_edge_name n d t, match d with Foward _ => true | Backward _ => false end)
      | None => None end).
  Proof using SZ FX B.
    intros [x y] d [Hx Hy] HW. cbn [fst snd] in *. pose proof (sizes SZ) as HS.
    destruct (counts g nf ef R) as (C1 & C2 & _). unfold get_edge_id. rewrite C1, C2. cbn [fst snd].
    rewrite loops_h_eq, loops_v_eq. destruct d as [[]|[]]; cbn [forward_wrap] in HW; cbn [fst snd] in HW.
    - rewrite sq_neighbour_fwd_h by auto. rewrite usize_add_ok by (rewrite USIZE_pow; lia). cbn [bind].
      destruct (Z.ltb_spec (x + 1) h); [reflexivity|]. replace (x + 1 =? h) with true by lia.
      rewrite andb_true_r. destruct (loops_h S) eqn:EL; [|reflexivity]. cbn [sq_edge_name].
      assert (h = 1) by (destruct (Z.eq_dec h 1); auto; exfalso; apply HW; repeat split; auto; lia).
      replace x with 0 by lia. reflexivity.
    - rewrite sq_neighbour_fwd_v by auto. rewrite usize_add_ok by (rewrite USIZE_pow; lia). cbn [bind].
      destruct (Z.ltb_spec (y + 1) v); [reflexivity|]. replace (y + 1 =? v) with true by lia.
      rewrite andb_true_r. destruct (loops_v S) eqn:EL; [|reflexivity]. cbn [sq_edge_name].
      assert (v = 1) by (destruct (Z.eq_dec v 1); auto; exfalso; apply HW; repeat split; auto; lia).
      replace y with 0 by lia. reflexivity.
    - rewrite sq_neighbour_bwd_h by auto. destruct (Z.eqb_spec x 0); cbn [negb].
      + rewrite andb_true_r. destruct (loops_h S); [|reflexivity].
        rewrite usize_sub_ok by (rewrite USIZE_pow; lia). cbn [bind]. rewrite (ix_x FX) by lia. reflexivity.
      + rewrite (ni_left_ok SZ FX) by lia. reflexivity.
    - rewrite sq_neighbour_bwd_v by auto. destruct (Z.eqb_spec y 0); cbn [negb].
      + rewrite andb_true_r. destruct (loops_v S); [|reflexivity].
        rewrite usize_sub_ok by (rewrite USIZE_pow; lia). cbn [bind]. rewrite (ix_y FX) by lia. reflexivity.
      + rewrite (ni_down_ok SZ FX) by lia. reflexivity.
  Qed.

  Lemma uget_edge : forall e d, sq_edge_exists S h v e ->
    snd e = (match d with Foward a => a | Backward a => a end) ->
    (if sd_is_horizontal d then array_uget m (sg_horizontal g) (fst (fst e)) (snd (fst e))
     else array_uget m (sg_vertical g) (fst (fst e)) (snd (fst e))) = Ok (ef e).
  Proof using SZ B.
    intros [[x y] a] d He Ha. cbn [fst snd] in *. subst a.
    destruct d as [[]|[]]; cbn [sd_is_horizontal axis_is_horizontal];
      rewrite ?edge_exists_h, ?edge_exists_v in He; destruct He as [H1 H2];
      first [apply (uget_h g nf ef x y R H1 H2)|apply (uget_v g nf ef x y R H1 H2)].
  Qed.

  Lemma c47 : forall n d, on_board h v n -> ~ forward_wrap S h v n d ->
    match sq_edge_view S h v ef n d with
    | Some x => exists r, get_edge_reference m g n d = Ok (Some r) /\ sq_view ix S m r = Ok x /\
        get_edge_id m g n d = Ok (Some (view_id x, match d with Foward _ => true | Backward _ => false end))
    | None => get_edge_reference m g n d = Ok None /\ get_edge_id m g n d = Ok None
    end.
  Proof using SZ FX B.
    intros n d Hn HW. unfold get_edge_reference. rewrite (get_edge_id_ok n d Hn HW).
    pose proof (view_ref (m := m) SZ FX ef n d Hn) as V. unfold ref_at, sq_edge_view in *.
    destruct (sq_neighbour S h v n d) as [t|] eqn:Et; cbn [bind]; [|auto].
    rewrite uget_edge; [|apply edge_name_exists; auto|destruct d; reflexivity]. cbn [bind].
    destruct (counts g nf ef R) as (C1 & C2 & _). rewrite C1, C2.
    eexists. split; [reflexivity|]. cbn [opt_list map] in V. injection V as V. split; auto.
  Qed.

  Lemma c47_wrap : forall n d, on_board h v n -> forward_wrap S h v n d ->
    exists t x r, sq_neighbour S h v n d = Some t /\ t <> n /\ sq_edge_view S h v ef t d = Some x /\
      get_edge_reference m g n d = Ok (Some r) /\ sq_view ix S m r = Ok x /\
      get_edge_id m g n d = Ok (Some (view_id x, true)).
  Proof using SZ FX B.
    intros [x y] d [Hx Hy] HW. cbn [fst snd] in *. pose proof (sizes SZ) as HS.
    destruct d as [[]|[]]; cbn [forward_wrap fst snd] in HW; try contradiction; destruct HW as (EL & Hl & Hs).
    - assert (Ht : sq_neighbour S h v (x, y) (Foward Horizontal) = Some (0, y)).
      { rewrite sq_neighbour_fwd_h, EL by auto. replace (x + 1 <? h) with false by lia. reflexivity. }
      assert (Hb : on_board h v (0, y)) by (split; cbn [fst snd]; lia).
      assert (HW' : ~ forward_wrap S h v (0, y) (Foward Horizontal)) by (cbn [forward_wrap fst snd]; lia).
      pose proof (c47 _ _ Hb HW') as C. unfold sq_edge_view in C.
      assert (Ht' : sq_neighbour S h v (0, y) (Foward Horizontal) = Some (1, y)).
      { rewrite sq_neighbour_fwd_h by lia. replace (0 + 1 <? h) with true by lia. reflexivity. }
      exists (0, y). unfold sq_edge_view. rewrite Ht'. rewrite Ht' in C. cbn [sq_edge_name] in *.
      destruct C as (r & C1 & C2 & C3). eexists. exists r. split; auto.
      split; [intros Hq; injection Hq; lia|]. split; [reflexivity|].
      assert (HI : get_edge_id m g (x, y) (Foward Horizontal) = get_edge_id m g (0, y) (Foward Horizontal)).
      { rewrite C3. destruct (counts g nf ef R) as (K1 & K2 & _). unfold get_edge_id. rewrite K1. cbn [fst snd].
        rewrite usize_add_ok by (rewrite USIZE_pow; lia). cbn [bind]. rewrite loops_h_eq, EL.
        replace (x + 1 <? h) with false by lia. replace (x + 1 =? h) with true by lia. reflexivity. }
      unfold get_edge_reference in *. rewrite HI. auto.
    - assert (Ht : sq_neighbour S h v (x, y) (Foward Vertical) = Some (x, 0)).
      { rewrite sq_neighbour_fwd_v, EL by auto. replace (y + 1 <? v) with false by lia. reflexivity. }
      assert (Hb : on_board h v (x, 0)) by (split; cbn [fst snd]; lia).
      assert (HW' : ~ forward_wrap S h v (x, 0) (Foward Vertical)) by (cbn [forward_wrap fst snd]; lia).
      pose proof (c47 _ _ Hb HW') as C. unfold sq_edge_view in C.
      assert (Ht' : sq_neighbour S h v (x, 0) (Foward Vertical) = Some (x, 1)).
      { rewrite sq_neighbour_fwd_v by lia. replace (0 + 1 <? v) with true by lia. reflexivity. }
      exists (x, 0). unfold sq_edge_view. rewrite Ht'. rewrite Ht' in C. cbn [sq_edge_name] in *.
      destruct C as (r & C1 & C2 & C3). eexists. exists r. split; auto.
      split; [intros Hq; injection Hq; lia|]. split; [reflexivity|].
      assert (HI : get_edge_id m g (x, y) (Foward Vertical) = get_edge_id m g (x, 0) (Foward Vertical)).
      { rewrite C3. destruct (counts g nf ef R) as (K1 & K2 & _). unfold get_edge_id. rewrite K2. cbn [fst snd].
        rewrite usize_add_ok by (rewrite USIZE_pow; lia). cbn [bind]. rewrite loops_v_eq, EL.
        replace (y + 1 <? v) with false by lia. replace (y + 1 =? v) with true by lia. reflexivity. }
      unfold get_edge_reference in *. rewrite HI. auto.
  Qed.

  Lemma forward_wrap_dec : forall n d, forward_wrap S h v n d \/ ~ forward_wrap S h v n d.
  Proof.
    intros n d. unfold forward_wrap. destruct d as [[]|[]]; auto;
      [destruct (loops_h S)|destruct (loops_v S)]; lia.
  Qed.

  Lemma c48 : forall n d, on_board h v n -> exists o, get_edge_reference m g n d = Ok o.
  Proof using SZ FX B.
    intros n d Hn. destruct (forward_wrap_dec n d) as [H|H].
    - destruct (c47_wrap n d Hn H) as (t & x & r & _ & _ & _ & H1 & _). eauto.
    - pose proof (c47 n d Hn H) as C. destruct (sq_edge_view S h v ef n d).
      + destruct C as (r & H1 & _). eauto.
      + destruct C as (H1 & _). eauto.
  Qed.

  (** ** C50 *)

  Definition SVM (vm : list FixedBitSet) (marked : list Cell) : Prop :=
    length vm = Z.to_nat h /\
    (forall x, 0 <= x < h -> exists b, nth_error vm (Z.to_nat x) = Some b /\
       length b = Z.to_nat v /\
       forall y, 0 <= y < v -> nth (Z.to_nat y) b false = mem (x, y) marked).

  Lemma svm_set : forall vm marked x y b z marked', SVM vm marked ->
    0 <= x < h -> 0 <= y < v -> nth_error vm (Z.to_nat x) = Some b ->
    (forall c, mem c marked' = if pair_eqb c (x, y) then z else mem c marked) ->
    SVM (list_set vm (Z.to_nat x) (list_set b (Z.to_nat y) z)) marked'.
  Proof.
    intros vm marked x y b z marked' (H1 & H2) Hx Hy Hb Hm.
    split; [rewrite list_set_length; auto|].
    intros x' Hx'. destruct (Z.eq_dec x' x) as [->|Hne].
    - destruct (H2 x Hx) as (b0 & B1 & B2 & B3). rewrite Hb in B1. injection B1 as <-.
      exists (list_set b (Z.to_nat y) z). split; [|split].
      + apply nth_error_list_set_eq. lia.
      + rewrite list_set_length. auto.
      + intros y' Hy'. rewrite Hm. destruct (Z.eq_dec y' y) as [->|Hney].
        * rewrite nth_list_set_eq by lia. rewrite (proj2 (pair_eqb_eq _ _) eq_refl). reflexivity.
        * rewrite nth_list_set_neq by lia. rewrite B3 by auto.
          destruct (pair_eqb (x, y') (x, y)) eqn:Ep; auto.
          apply pair_eqb_eq in Ep. injection Ep. lia.
    - destruct (H2 x' Hx') as (b0 & B1 & B2 & B3). exists b0. split; [|split]; auto.
      + rewrite nth_error_list_set_neq by lia. auto.
      + intros y' Hy'. rewrite B3, Hm by auto.
        destruct (pair_eqb (x', y') (x, y)) eqn:Ep; auto.
        apply pair_eqb_eq in Ep. injection Ep. lia.
  Qed.

  Lemma svm_op : forall vm marked op, SVM vm marked -> sq_visit_allowed h v op ->
    exists vm', sq_visit_op g vm op = Ok (fst (visit_spec (sq_nodes h v) marked op), vm') /\
      SVM vm' (snd (visit_spec (sq_nodes h v) marked op)).
  Proof.
    intros vm marked op HV Hop. pose proof HV as (H1 & H2).
    destruct op as [[x y]|[x y]|[x y]|]; cbn [sq_visit_op visit_spec sq_visit_allowed] in *;
      lazymatch type of Hop with True => idtac | _ =>
        destruct Hop as [Hx Hy]; cbn [fst snd] in Hx, Hy; destruct (H2 x Hx) as (b & B1 & B2 & B3) end.
    - assert (Hin : mem (x, y) (sq_nodes h v) = true) by (apply mem_true, sq_in_nodes; split; auto).
      rewrite Hin. unfold svm_visit. cbn [fst snd].
      rewrite (vec_index_ok _ _ _ _ (proj1 Hx) B1). cbn [bind].
      unfold bits_put. replace ((0 <=? y) && (y <? Z.of_nat (length b))) with true by lia.
      cbn [bind]. rewrite B3 by auto. eexists. split; [reflexivity|]. eapply svm_set; eauto.
    - unfold svm_unvisit. cbn [fst snd].
      rewrite (vec_index_ok _ _ _ _ (proj1 Hx) B1). cbn [bind].
      unfold bits_set. replace ((0 <=? y) && (y <? Z.of_nat (length b))) with true by lia.
      cbn [bind]. eexists. split; [reflexivity|]. eapply svm_set; eauto.
      intros c. cbn [snd]. pose proof (mem_filter c (x, y) marked) as Hf. cbn [fst snd] in Hf. rewrite Hf.
      destruct (pair_eqb c (x, y)); reflexivity.
    - unfold svm_is_visited. cbn [fst snd].
      rewrite (vec_index_ok _ _ _ _ (proj1 Hx) B1). cbn [bind].
      unfold bits_contains. replace (0 <=? y) with true by lia. rewrite B3 by auto.
      eexists. split; [reflexivity|]. exact HV.
    - eexists. split; [reflexivity|]. cbn [snd]. unfold sg_reset_map. split; [rewrite map_length; auto|].
      intros x Hx. destruct (H2 x Hx) as (b & B1 & B2 & B3). exists (bits_clear b).
      split; [rewrite nth_error_map, B1; reflexivity|]. unfold bits_clear. rewrite repeat_length. split; auto.
      intros y Hy. rewrite nth_repeat_lt by lia. reflexivity.
  Qed.

  Lemma svm_fresh : SVM (sg_visit_map g) (@nil Cell).
  Proof using SZ B.
    destruct (counts g nf ef R) as (C1 & C2 & _).
    unfold sg_visit_map. rewrite C1, C2. split; [apply repeat_length|]. intros x Hx.
    exists (bits_new v). split; [|split].
    - rewrite nth_error_nth' with (d := bits_new v) by (rewrite repeat_length; lia).
      f_equal. apply nth_repeat_lt. lia.
    - apply repeat_length.
    - intros y Hy. unfold bits_new. rewrite nth_repeat_lt by lia. reflexivity.
  Qed.

  Lemma svm_run : forall ops marked vm, SVM vm marked -> Forall (sq_visit_allowed h v) ops ->
    exists vm', sq_visit_run g vm ops = Ok (visit_spec_run (sq_nodes h v) marked ops, vm') /\
      SVM vm' (marked_after (sq_nodes h v) marked ops).
  Proof.
    induction ops as [|op ops IH]; intros marked vm HV HF;
      cbn [sq_visit_run visit_spec_run marked_after]; eauto.
    inversion HF; subst. destruct (svm_op vm marked op HV H1) as (vm' & E1 & E2).
    rewrite E1. cbn [bind]. destruct (visit_spec (sq_nodes h v) marked op) as [b marked'].
    cbn [fst snd] in *. destruct (IH _ _ E2 H2) as (vm2 & -> & HV2). cbn [bind]. eauto.
  Qed.

  Lemma c50 : forall ops, Forall (sq_visit_allowed h v) ops -> exists vm,
    sq_visit_run g (sg_visit_map g) ops = Ok (visit_spec_run (sq_nodes h v) [] ops, vm).
  Proof using SZ B.
    intros ops HF. destruct (svm_run ops [] _ svm_fresh HF) as (vm & H1 & _). eauto.
  Qed.

  (** Off the board [visit] and [unvisit] panic; [is_visited] only for a missing column. *)
  Lemma c50_off : forall ops, Forall (sq_visit_allowed h v) ops -> exists vm,
    sq_visit_run g (sg_visit_map g) ops = Ok (visit_spec_run (sq_nodes h v) [] ops, vm) /\
    forall n, ~ on_board h v n ->
      svm_visit vm n = Fail FPanic /\ svm_unvisit vm n = Fail FPanic /\
      svm_is_visited vm n
      = if (0 <=? fst n) && (fst n <? h) then Ok false else Fail FPanic.
  Proof using SZ B.
    intros ops HF. destruct (svm_run ops [] _ svm_fresh HF) as (vm & E1 & H1 & H2).
    exists vm. split; auto. intros [x y] Hn. unfold svm_visit, svm_unvisit, svm_is_visited, vec_index.
    cbn [fst snd].
    destruct (Z.leb_spec 0 x); [|cbn [bind andb]; auto].
    destruct (Z.ltb_spec x h) as [Hx|Hx]; cbn [andb].
    - destruct (H2 x ltac:(lia)) as (b & B1 & B2 & B3). rewrite B1. cbn [bind].
      unfold bits_put, bits_set, bits_contains.
      replace ((0 <=? y) && (y <? Z.of_nat (length b))) with false
        by (unfold on_board in Hn; cbn [fst snd] in Hn; lia).
      cbn [bind]. split; auto. split; auto. destruct (Z.leb_spec 0 y); auto.
      rewrite nth_overflow; auto. unfold on_board in Hn; cbn [fst snd] in Hn; lia.
    - rewrite (proj2 (nth_error_None _ _)) by lia. auto.
  Qed.

  Lemma c24_square : forall ops, Forall (sq_visit_allowed h v) ops -> exists vm,
    sq_visit_run g (sg_visit_map g) ops = Ok (visit_spec_run (sq_nodes h v) [] ops, vm) /\
    forall n, on_board h v n ->
      (exists vm', svm_unvisit vm n = Ok (true, vm')) /\
      svm_is_visited vm n = Ok (mem n (marked_after (sq_nodes h v) [] ops)).
  Proof using SZ B.
    intros ops HF. destruct (svm_run ops [] _ svm_fresh HF) as (vm & E1 & HV).
    exists vm. split; auto. intros [x y] Hn. pose proof HV as (H1 & H2). split.
    - pose proof Hn as [Hx Hy]. cbn [fst snd] in Hx, Hy. destruct (H2 x Hx) as (b & B1 & B2 & B3).
      unfold svm_unvisit. cbn [fst snd]. rewrite (vec_index_ok _ _ _ _ (proj1 Hx) B1). cbn [bind].
      unfold bits_set. replace ((0 <=? y) && (y <? Z.of_nat (length b))) with true by lia.
      cbn [bind]. eauto.
    - destruct (svm_op vm _ (IsVisited (x, y)) HV Hn) as (vm' & E2 & _).
      cbn [sq_visit_op visit_spec fst] in E2.
      destruct (svm_is_visited vm (x, y)) as [b|]; [|discriminate]. cbn [bind] in E2. congruence.
  Qed.

  (** ** C51 *)

  Lemma c51 : forall ops, let '(answers, nf', ef') := sq_write_spec S h v nf ef ops in
    exists g', sq_write_run g ops = (answers, g') /\ SqBuilt m h v g' nf' ef'.
  Proof using SZ B.
    clear R. revert g nf ef B.
    assert (H : forall ops (g : SquareGraph N E ix S) nf ef, SqBuilt m h v g nf ef ->
      let '(answers, nf', ef') := sq_write_spec S h v nf ef ops in
      exists g', sq_write_run g ops = (answers, g') /\ SqBuilt m h v g' nf' ef').
    2:{ intros g nf ef HB ops. apply H. auto. }
    induction ops as [|[n f|e f] ops IH]; intros g nf ef HB; cbn [sq_write_spec sq_write_run]; eauto;
      pose proof (built_rep _ _ _ _ _ _ SZ HB) as R.
    - assert (Hob : forall k, on_board_b h v k = true <-> on_board h v k)
        by (intros k; unfold on_board_b, on_board; lia).
      destruct (on_board_b h v n) eqn:Eb; cbn [andb].
      + set (nf' := fun n' : NodeIndex => if same_cell n' n then f (nf n') else nf n').
        apply Hob in Eb.
        assert (E1 : nf' n = f (nf n)).
        { unfold nf', same_cell. rewrite !Z.eqb_refl. reflexivity. }
        assert (E2 : forall n', n' <> n -> nf' n' = nf n').
        { intros n' Hne. unfold nf'. destruct (same_cell n' n) eqn:Es; auto. exfalso. apply Hne.
          apply pair_eqb_eq. exact Es. }
        destruct (rep_node_write _ _ _ _ _ _ f nf' R Eb E1 E2) as (g2 & G1 & G2). rewrite G1.
        assert (HB2 : SqBuilt m h v g2 nf' ef) by (eapply sq_built_node; eauto).
        pose proof (IH g2 nf' ef HB2) as IH2.
        destruct (sq_write_spec S h v nf' ef ops) as [[l nf2] ef2].
        destruct IH2 as (g3 & R3 & HB3). rewrite R3. eauto.
      + assert (Hn : ~ on_board h v n) by (rewrite <- Hob; congruence).
        rewrite (node_write_out g n f) by (eapply rep_node_out; eauto).
        pose proof (IH g nf ef HB) as IH2.
        change (fun n' : NodeIndex => nf n') with nf.
        destruct (sq_write_spec S h v nf ef ops) as [[l nf2] ef2].
        destruct IH2 as (g3 & R3 & HB3). rewrite R3. eauto.
    - assert (Hob : forall k, on_board_b h v k = true <-> on_board h v k)
        by (intros k; unfold on_board_b, on_board; lia).
      destruct (on_board_b h v (fst e) &&
        match sq_neighbour S h v (fst e) (Foward (snd e)) with Some _ => true | None => false end) eqn:Eb; cbn [andb].
      + set (ef' := fun e' : EdgeIndex => if same_cell (fst e') (fst e) && sq_axis_eqb (snd e') (snd e) then f (ef e') else ef e').
        assert (He : sq_edge_exists S h v e).
        { apply andb_true_iff in Eb. destruct Eb as [E1 E2]. split; [apply Hob; auto|].
          destruct (sq_neighbour S h v (fst e) (Foward (snd e))); congruence. }
        assert (E1 : ef' e = f (ef e)).
        { unfold ef', same_cell. rewrite !Z.eqb_refl. destruct e as [k []]; reflexivity. }
        assert (E2 : forall e', e' <> e -> ef' e' = ef e').
        { intros e' Hne. unfold ef'.
          destruct (same_cell (fst e') (fst e) && sq_axis_eqb (snd e') (snd e)) eqn:Es; [|reflexivity]. exfalso. apply Hne.
          apply andb_true_iff in Es. destruct Es as [E1' E2']. destruct e as [k a], e' as [k' a']. cbn [fst snd] in *.
          assert (Hk : k' = k) by (apply pair_eqb_eq; exact E1'). subst k'.
          destruct a, a'; auto; discriminate. }
        destruct (rep_edge_write _ _ _ _ _ _ f ef' R He E1 E2) as (g2 & G1 & G2). rewrite G1.
        assert (HB2 : SqBuilt m h v g2 nf ef') by (eapply sq_built_edge; eauto).
        pose proof (IH g2 nf ef' HB2) as IH2.
        destruct (sq_write_spec S h v nf ef' ops) as [[l nf2] ef2].
        destruct IH2 as (g3 & R3 & HB3). rewrite R3. eauto.
      + assert (He : ~ sq_edge_exists S h v e).
        { intros [E1 E2]. apply Hob in E1. rewrite E1 in Eb. cbn [andb] in Eb.
          destruct (sq_neighbour S h v (fst e) (Foward (snd e))); congruence. }
        rewrite (edge_write_out g e f) by (eapply rep_edge_out; eauto).
        pose proof (IH g nf ef HB) as IH2.
        change (fun e' : EdgeIndex => ef e') with ef.
        destruct (sq_write_spec S h v nf ef ops) as [[l nf2] ef2].
        destruct IH2 as (g3 & R3 & HB3). rewrite R3. eauto.
  Qed.
End Main.

(** ** C49 *)

Lemma distance_ok : forall m a b, small_index a -> small_index b ->
  ni_distance m a b = Ok (manhattan a b).
Proof.
  intros m [x y] [x' y'] (H1 & H2) (H3 & H4). cbn [fst snd] in *. unfold ni_distance, manhattan. cbn [fst snd].
  assert (HA : forall z, 0 <= z < 2 ^ 63 -> as_isize z = z) by (intros; apply as_isize_small; rewrite IMAX1_pow; lia).
  rewrite !HA by auto. rewrite isize_sub_ok by (rewrite IMAX1_pow; lia). cbn [bind].
  rewrite isize_sub_ok by (rewrite IMAX1_pow; lia). cbn [bind].
  apply usize_add_ok. rewrite USIZE_pow. lia.
Qed.

Lemma c49_metric : forall m a b c, small_index a -> small_index b -> small_index c ->
  exists ab ac cb, ni_distance m a b = Ok ab /\ ni_distance m b a = Ok ab /\
    (ab = 0 <-> a = b) /\ ni_distance m a c = Ok ac /\ ni_distance m c b = Ok cb /\ ab <= ac + cb.
Proof.
  intros m a b c Ha Hb Hc. exists (manhattan a b), (manhattan a c), (manhattan c b).
  rewrite !distance_ok by auto. split; auto. split; [f_equal; unfold manhattan; lia|].
  split; [|split; [auto|split; [auto|unfold manhattan; lia]]].
  destruct a as [x y], b as [x' y']. unfold manhattan. cbn [fst snd]. split.
  - intros H. f_equal; lia.
  - intros H. injection H as -> ->. lia.
Qed.

Section Dist.
  Context {N E : Type} {ix : IxType} {S : LoopShape} {m : mode} {h v : Z}
    (SZ : sq_size S h v) (FX : sq_index_fits ix h v).
  Context {g : SquareGraph N E ix S} {nf : NodeIndex -> N} {ef : EdgeIndex -> E}
    (B : SqBuilt m h v g nf ef).

  Lemma in_neighbours : forall n t, In t (sq_neighbours S h v n) <-> exists d, sq_neighbour S h v n d = Some t.
  Proof.
    intros n t. unfold sq_neighbours. rewrite in_flat_map. split.
    - intros (d & _ & H). exists d. destruct (sq_neighbour S h v n d); [|destruct H].
      destruct H as [->|[]]. auto.
    - intros (d & H). exists d. split; [destruct d as [[]|[]]; cbn; tauto|]. rewrite H. left. auto.
  Qed.

  Lemma neighbour_distance : forall n d t, S = DefaultShape -> on_board h v n ->
    sq_neighbour S h v n d = Some t -> manhattan n t = 1.
  Proof.
    intros [x y] d t HS [Hx Hy] H. cbn [fst snd] in *. unfold manhattan.
    destruct d as [[]|[]];
      rewrite ?sq_neighbour_fwd_h, ?sq_neighbour_fwd_v, ?sq_neighbour_bwd_h, ?sq_neighbour_bwd_v in H by auto;
      rewrite HS in H; cbn [loops_h loops_v] in H;
      match type of H with (if ?c then _ else _) = _ => destruct c end; try discriminate;
      injection H as <-; cbn [fst snd]; lia.
  Qed.

  Lemma c49_lower : forall k a b, S = DefaultShape -> on_board h v a -> SqPath m g k a b ->
    on_board h v b /\ manhattan a b <= Z.of_nat k.
  Proof using SZ FX B.
    intros k a b HS Ha H. revert Ha. induction H as [a|k a b c l HD Hin HP IH]; intros Ha.
    - split; auto. unfold manhattan. lia.
    - destruct (c44 SZ FX B a Ha) as [HD' _]. rewrite (Drains_det _ _ _ _ HD HD') in Hin.
      apply in_neighbours in Hin. destruct Hin as (d & Hd).
      pose proof (neighbour_on_board _ _ _ _ _ Ha Hd) as Hb. destruct (IH Hb) as [Hc HL]. split; auto.
      pose proof (neighbour_distance _ _ _ HS Ha Hd). unfold manhattan in *. lia.
  Qed.

  (** A step towards the goal. *)
  Lemma step_towards : forall a b, on_board h v a -> on_board h v b -> a <> b ->
    exists d t, sq_neighbour S h v a d = Some t /\ manhattan t b = manhattan a b - 1.
  Proof.
    intros [x y] [x' y'] [Hx Hy] [Hx' Hy'] Hne. cbn [fst snd] in *. unfold manhattan. cbn [fst snd].
    destruct (Z.lt_trichotomy x x') as [H|[H|H]].
    - exists (Foward Horizontal), (x + 1, y). rewrite sq_neighbour_fwd_h by auto.
      replace (x + 1 <? h) with true by lia. split; auto. cbn [fst snd]. lia.
    - destruct (Z.lt_trichotomy y y') as [H'|[H'|H']].
      + exists (Foward Vertical), (x, y + 1). rewrite sq_neighbour_fwd_v by auto.
        replace (y + 1 <? v) with true by lia. split; auto. cbn [fst snd]. lia.
      + congruence.
      + exists (Backward Vertical), (x, y - 1). rewrite sq_neighbour_bwd_v by auto.
        replace (y =? 0) with false by lia. split; auto. cbn [fst snd]. lia.
    - exists (Backward Horizontal), (x - 1, y). rewrite sq_neighbour_bwd_h by auto.
      replace (x =? 0) with false by lia. split; auto. cbn [fst snd]. lia.
  Qed.

  Lemma c49_path : forall k a b, on_board h v a -> on_board h v b -> manhattan a b = Z.of_nat k ->
    SqPath m g k a b.
  Proof using SZ FX B.
    induction k as [|k IH]; intros a b Ha Hb Hd.
    - assert (a = b) as ->; [|constructor]. destruct a, b. unfold manhattan in Hd. cbn [fst snd] in *. f_equal; lia.
    - assert (Hne : a <> b).
      { intros ->. unfold manhattan in Hd. lia. }
      destruct (step_towards a b Ha Hb Hne) as (d & t & Ht & Hm).
      apply (sq_path_step m g k a t b _ (proj1 (c44 SZ FX B a Ha))); [apply in_neighbours; eauto|].
      apply IH; [exact (neighbour_on_board _ _ _ _ _ Ha Ht)|auto|lia].
  Qed.

  Lemma on_board_small : forall n, on_board h v n -> small_index n.
  Proof using SZ. intros n [H1 H2]. pose proof (sizes SZ). split; lia. Qed.

  Lemma c49 : forall a b, on_board h v a -> on_board h v b ->
    exists k, ni_distance m a b = Ok (Z.of_nat k) /\ SqPath m g k a b /\
      (S = DefaultShape -> forall k', SqPath m g k' a b -> (k <= k')%nat).
  Proof using SZ FX B.
    intros a b Ha Hb. exists (Z.to_nat (manhattan a b)).
    assert (Hp : 0 <= manhattan a b) by (unfold manhattan; lia).
    rewrite distance_ok by (apply on_board_small; auto). split; [f_equal; lia|].
    split; [apply c49_path; auto; lia|].
    intros HS k' HP. destruct (c49_lower k' a b HS Ha HP). lia.
  Qed.
End Dist.
