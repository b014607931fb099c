(** * SquareCompare: [SquareGraph] without loops against the lattice graph on
    [SquareShape]. *)

From Verif Require Import Machine Store Axes Shapes Lattice Spec SquareGraph SpecSquare Basics
  GeoProofs ShapeProofs Main1 SquareProofs SquareIter SquareMain.
From Coq Require Import ZifyBool ZifyNat Permutation.
Ltac Zify.zify_post_hook ::= Z.div_mod_to_equations.

Section Compare.
  Context {N E : Type} {ix : IxType} {m : mode} {h v : Z}
    (SZ : sq_size DefaultShape h v) (FX : sq_index_fits ix h v).
  Context {g1 : SquareGraph N E ix DefaultShape}
    {g2 : LatticeGraph Cell SquareAxis DirectedSquareAxis N E}
    {nf : NodeIndex -> N} {ef : EdgeIndex -> E}
    (B1 : SqBuilt m h v g1 nf ef).
  Notation G := (square_geometry square_axes h v).
  Context (B2 : Built m (square_shape h v) G g2 nf (fun c a => ef (c, new_axis a))).

  Lemma fits_square : fits h v.
  Proof using SZ. destruct SZ as (H1 & H2 & H3). cbn in H2. unfold fits. lia. Qed.

  Lemma sup : Supported (square_shape h v) G.
  Proof using SZ. constructor. apply fits_square. Qed.
  Lemma sto : Stored (square_shape h v) G.
  Proof using SZ. constructor. apply sup. Qed.

  Definition dir_of (d : SquareDirection) : DirectedSquareAxis :=
    match d with Foward Horizontal => DX | Foward Vertical => DY
               | Backward Horizontal => DRX | Backward Vertical => DRY end.

  Lemma step_same : forall n d, on_board h v n ->
    geo_step G n (dir_of d) = sq_neighbour DefaultShape h v n d.
  Proof.
    intros [x y] d [Hx Hy]. cbn [fst snd] in *.
    assert (HP := @square_inj SquareAxis DirectedSquareAxis square_axes h v).
    assert (Hin : forall a b, In (a, b) (geo_nodes G) <-> 0 <= a < h /\ 0 <= b < v).
    { intros a b. apply (sq_in_nodes (a, b)). }
    assert (HS : forall a b, 0 <= a < h -> 0 <= b < v ->
      vadd (x, y) (square_vec (dir_of d)) = (a, b) -> geo_step G (x, y) (dir_of d) = Some (a, b)).
    { intros a b Ha Hb Hv. apply (geo_step_some HP); [apply Hin; auto|].
      cbn [geo_ax square_geometry rect_geometry square_axes ag_vec]. rewrite Hv. apply same_place_refl. }
    assert (HN : forall a b, vadd (x, y) (square_vec (dir_of d)) = (a, b) ->
      ~ (0 <= a < h /\ 0 <= b < v) -> geo_step G (x, y) (dir_of d) = None).
    { intros a b Hv Hn. apply (geo_step_none HP). intros [a' b'] Hi.
      cbn [geo_ax square_geometry rect_geometry square_axes ag_vec]. rewrite Hv.
      apply not_true_iff_false. intros Hs. apply Hn. apply Hin.
      unfold same_place in Hs. cbn [fst snd] in Hs. rewrite Z.eqb_refl in Hs.
      replace a with a' by lia. replace b with b' by lia. exact Hi. }
    destruct d as [[]|[]]; cbn [dir_of square_vec] in *; unfold vadd in HS, HN; cbn [fst snd] in HS, HN.
    - rewrite sq_neighbour_fwd_h by auto. cbn [loops_h]. destruct (Z.ltb_spec (x + 1) h).
      + apply HS; try lia. f_equal. lia.
      + eapply HN; [reflexivity|lia].
    - rewrite sq_neighbour_fwd_v by auto. cbn [loops_v]. destruct (Z.ltb_spec (y + 1) v).
      + apply HS; try lia. f_equal. lia.
      + eapply HN; [reflexivity|lia].
    - rewrite sq_neighbour_bwd_h by auto. cbn [loops_h]. destruct (Z.eqb_spec x 0).
      + eapply HN; [reflexivity|lia].
      + apply HS; try lia. f_equal; lia.
    - rewrite sq_neighbour_bwd_v by auto. cbn [loops_v]. destruct (Z.eqb_spec y 0).
      + eapply HN; [reflexivity|lia].
      + apply HS; try lia. f_equal; lia.
  Qed.

  Lemma edge_same : forall n a, edge_exists G n a <-> sq_edge_exists DefaultShape h v (n, new_axis a).
  Proof.
    intros n a. unfold edge_exists, sq_edge_exists. cbn [fst snd].
    assert (Hn : In n (geo_nodes G) <-> on_board h v n) by (apply (sq_in_nodes n)).
    split; intros [H1 H2]; split; try (apply Hn; exact H1); try apply Hn in H1.
    - rewrite <- step_same by auto. destruct a; exact H2.
    - rewrite <- step_same in H2 by (apply Hn; auto). destruct a; exact H2.
  Qed.

  Lemma c52_weights :
    (forall n, 0 <= fst n < 2 ^ 64 -> 0 <= snd n < 2 ^ 64 ->
       node_weight m g2 n = Ok (sg_node_weight g1 n) /\
       (forall a, edge_weight m g2 (n, a) = Ok (sg_edge_weight g1 (n, new_axis a)))) /\
    node_count m g2 = Ok (sg_node_count g1) /\
    (forall n, on_board h v n -> to_index m g2 n = sg_to_index m g1 n).
  Proof using SZ B1 B2.
    pose proof sto as ST. split; [|split].
    - intros n H1 H2. assert (HL : locatable m G n) by (split; [split; auto|intros _ []]).
      assert (Hn : In n (geo_nodes G) <-> on_board h v n) by (apply (sq_in_nodes n)).
      destruct (built_weights ST _ _ _ B2) as (W1 & W3 & W2 & W4). split.
      + destruct (in_dec RepProofs.cell_dec n (geo_nodes G)) as [Hi|Hi].
        * rewrite W1 by auto. rewrite (proj1 (c41_node SZ B1 n)) by (apply Hn; auto). reflexivity.
        * rewrite W2 by auto. rewrite (proj2 (c41_node SZ B1 n)) by (rewrite <- Hn; auto). reflexivity.
      + intros a.
        assert (Hd : sq_edge_exists DefaultShape h v (n, new_axis a) \/ ~ sq_edge_exists DefaultShape h v (n, new_axis a)).
        { destruct n as [x y], a; cbn [new_axis]; rewrite ?edge_exists_h, ?edge_exists_v; lia. }
        destruct Hd as [Hd|Hd].
        * etransitivity; [apply W3; apply edge_same; auto|]. rewrite (proj1 (c41_edge SZ B1 _)) by auto. reflexivity.
        * etransitivity; [apply W4; [auto|rewrite edge_same; auto]|]. rewrite (proj2 (c41_edge SZ B1 _)) by auto. reflexivity.
    - destruct (c05 ST _ _ _ B2) as (_ & -> & _). f_equal.
      destruct (counts g1 nf ef (built_rep _ _ _ _ _ _ SZ B1)) as (_ & _ & -> & _).
      exact (sq_nodes_length SZ).
    - intros [x y] [Hx Hy]. cbn [fst snd] in *.
      destruct (c05 ST _ _ _ B2) as (_ & _ & _ & C).
      rewrite (to_index_ok SZ g1 nf ef) by (auto; apply (built_rep _ _ _ _ _ _ SZ B1)).
      pose proof (sq_nodes_nth x y Hx Hy) as Hn. apply C in Hn. destruct Hn as [-> _]. f_equal. nia.
  Qed.

  (** Order of the directions: left, right, down, up against right, up, left, down. *)
  Lemma dirs_perm : Permutation sq_directions [Foward Horizontal; Foward Vertical; Backward Horizontal; Backward Vertical].
  Proof.
    unfold sq_directions. eapply perm_trans; [apply perm_swap|]. apply perm_skip.
    eapply perm_trans; [apply perm_skip, perm_swap|]. apply perm_swap.
  Qed.

  Lemma c52_neighbors : forall n, on_board h v n ->
    exists l1 l2, Drains (sg_neighbors_next (ix := ix) (S := DefaultShape) m) (sg_neighbors g1 n) l1 /\
      Drains (neighbors_next m g2 n) (neighbors g2 n) l2 /\ Permutation l1 l2.
  Proof using SZ FX B1 B2.
    intros n Hn. exists (sq_neighbours DefaultShape h v n), (spec_neighbors G n).
    split; [apply (c44 SZ FX B1 n Hn)|].
    split; [apply (c09 sto g2 nf _ n Outgoing B2); apply (sq_in_nodes n); auto|].
    unfold sq_neighbours. eapply perm_trans; [apply Permutation_flat_map, dirs_perm|].
    unfold spec_neighbors. cbn [geo_ax square_geometry rect_geometry square_axes ag_dirs flat_map].
    rewrite <- !step_same by auto. apply Permutation_refl.
  Qed.

  Lemma c52_edges : forall n, on_board h v n ->
    exists l1 x1 it2 l2, Drains (sg_edges_next m g1) (sg_edges g1 n) l1 /\
      map (sq_view ix DefaultShape m) l1 = map Ok x1 /\
      edges m g2 n = Ok it2 /\ Drains (edges_next m g2) it2 l2 /\
      Permutation (map plain_view x1) (map (fun r => (er_source r, er_target r, er_weight r)) l2).
  Proof using SZ FX B1 B2.
    intros n Hn. destruct (c45 SZ FX B1 n Hn) as (l1 & D1 & V1 & _).
    destruct (c12 (tr_supported _ _ _ _ sup) g2 nf _ n B2) as (it2 & E2 & D2); [apply (sq_in_nodes n); auto|].
    exists l1, (sq_edges_of DefaultShape h v ef n), it2. eexists. split; auto. split; auto. split; [exact E2|].
    split; [exact D2|]. unfold sq_edges_of.
    eapply perm_trans; [apply Permutation_map, Permutation_flat_map, dirs_perm|].
    unfold spec_edges. cbn [geo_ax square_geometry rect_geometry square_axes ag_dirs flat_map].
    unfold sq_edge_view. rewrite <- !step_same by auto. cbn [dir_of]. rewrite !map_app.
    apply Permutation_app; [|apply Permutation_app; [|apply Permutation_app; [|]]].
    all: match goal with |- context [geo_step ?G0 ?k ?d] => destruct (geo_step G0 k d) end; apply Permutation_refl.
  Qed.
End Compare.
