(** * VisitProofs: the visit map is a set of cells. *)

From Verif Require Import Machine Store Axes Shapes Lattice Spec Basics AxisProofs GeoProofs
  GraphProofs RepProofs.
From Coq Require Import ZifyBool ZifyNat.
Ltac Zify.zify_post_hook ::= Z.div_mod_to_equations.

Lemma nth_repeat_lt : forall A (x d : A) n i, (i < n)%nat -> nth i (repeat x n) d = x.
Proof. induction n; intros [|i] H; simpl; try lia; auto. apply IHn; lia. Qed.

Lemma mem_true : forall c l, mem c l = true <-> In c l.
Proof.
  intros [x y] l. unfold mem. rewrite existsb_exists. split.
  - intros ([x' y'] & Hin & H). cbn [fst snd] in H. replace x with x' by lia.
    replace y with y' by lia. auto.
  - intros H. exists (x, y). split; auto. cbn [fst snd]. lia.
Qed.

Lemma mem_cons : forall c c' l, mem c (c' :: l) = pair_eqb c c' || mem c l.
Proof. reflexivity. Qed.

Lemma mem_filter : forall c c' l,
  mem c (filter (fun c0 => negb ((fst c' =? fst c0) && (snd c' =? snd c0))) l)
  = negb (pair_eqb c c') && mem c l.
Proof.
  intros c c' l. apply eq_true_iff_eq. rewrite andb_true_iff, !mem_true, filter_In.
  rewrite !negb_true_iff. split; intros [H1 H2]; split; auto;
    destruct c, c'; unfold pair_eqb in *; cbn [fst snd] in *; lia.
Qed.

Section V.
  Context {A D N E : Type} {m : mode} {s : Shape Cell A D} {G : Geometry A D}
    {cell : Z -> Z -> Cell} (RF : Refines m s G cell).
  Notation w := (sh_horizontal s).
  Notation h := (sh_vertical s).
  Notation graph := (LatticeGraph Cell A D N E).

  Definition VMrep (vm : VisMap) (marked : list Cell) : Prop :=
    length vm = Z.to_nat w /\
    (forall x, 0 <= x < w -> exists b, nth_error vm (Z.to_nat x) = Some b /\
       length b = Z.to_nat h /\
       forall y, 0 <= y < h -> nth (Z.to_nat y) b false = mem (cell x y) marked) /\
    (forall c, In c marked -> In c (geo_nodes G)).

  Lemma visit_map_rep : forall g : graph, g_s g = s -> VMrep (visit_map g) [].
  Proof using RF.
    intros g Hs. unfold visit_map. rewrite Hs. split; [apply repeat_length|].
    split; [|intros c []]. intros x Hx. exists (bits_new h). split.
      rewrite nth_error_nth' with (d := bits_new h) by (rewrite repeat_length; lia).
      f_equal. apply nth_repeat_lt. lia.
    - split; [apply repeat_length|]. intros y Hy. unfold bits_new.
      rewrite nth_repeat_lt by lia. reflexivity.
  Qed.

  Lemma vec_index_ok : forall X (l : list X) x b, 0 <= x -> nth_error l (Z.to_nat x) = Some b ->
    vec_index l x = Ok b.
  Proof.
    intros X l x b Hx H. unfold vec_index. replace (0 <=? x) with true by lia. rewrite H. reflexivity.
  Qed.

  (** Setting one bit. *)
  Lemma vm_set_rep : forall vm marked x y b v marked', VMrep vm marked ->
    0 <= x < w -> 0 <= y < h -> nth_error vm (Z.to_nat x) = Some b ->
    (forall c, mem c marked' = if pair_eqb c (cell x y) then v else mem c marked) ->
    VMrep (list_set vm (Z.to_nat x) (list_set b (Z.to_nat y) v)) marked'.
  Proof using RF.
    intros vm marked x y b v marked' (H1 & H2 & H3) Hx Hy Hb Hm.
    split; [rewrite list_set_length; auto|]. split.
    - intros x' Hx'. destruct (Z.eq_dec x' x) as [->|Hne].
      + destruct (H2 x Hx) as (b0 & B1 & B2 & B3). rewrite Hb in B1. injection B1 as <-.
        exists (list_set b (Z.to_nat y) v). split; [|split].
        * apply nth_error_list_set_eq. lia.
        * rewrite list_set_length. auto.
        * intros y' Hy'. rewrite Hm. destruct (Z.eq_dec y' y) as [->|Hney].
          -- rewrite nth_list_set_eq by lia.
             rewrite (proj2 (pair_eqb_eq _ _) eq_refl). reflexivity.
          -- rewrite nth_list_set_neq by lia. rewrite B3 by auto.
             destruct (pair_eqb (cell x y') (cell x y)) eqn:Ep; auto.
             apply pair_eqb_eq in Ep. apply (cell_inj RF) in Ep; auto. lia.
      + destruct (H2 x' Hx') as (b' & B1 & B2 & B3). exists b'. split; [|split; auto].
        * rewrite nth_error_list_set_neq by lia. auto.
        * intros y' Hy'. rewrite Hm, B3 by auto.
          destruct (pair_eqb (cell x' y') (cell x y)) eqn:Ep; auto.
          apply pair_eqb_eq in Ep. apply (cell_inj RF) in Ep; auto. lia.
    - intros c Hc. apply mem_true in Hc. rewrite Hm in Hc.
      destruct (pair_eqb c (cell x y)) eqn:Ep.
      + apply pair_eqb_eq in Ep. subst c. apply (cell_in RF); auto.
      + apply H3. apply mem_true. auto.
  Qed.

  (** Arguments for which the location can be computed. *)
  Notation locatable := (locatable m G).
  Definition op_ok (op : VisitOp) : Prop :=
    match op with
    | Visit c | Unvisit c | IsVisited c => locatable c
    | ResetMap => True
    end.

  Lemma visit_op_ok : forall (g : graph) vm marked op, g_s g = s -> VMrep vm marked -> op_ok op ->
    exists vm', visit_op m g vm op = Ok (fst (visit_spec (geo_nodes G) marked op), vm') /\
      VMrep vm' (snd (visit_spec (geo_nodes G) marked op)).
  Proof using RF.
    intros g vm marked op Hs HV Hop. pose proof HV as (H1 & H2 & H3).
    assert (Hout : forall c, locatable c -> ~ In c (geo_nodes G) ->
      sh_to_offset s m c = Ok None /\ mem c (geo_nodes G) = false /\ mem c marked = false).
    { intros c [Hc Hx] Hn. split; [apply (rf_off_board _ _ _ _ RF); auto|].
      split; apply not_true_iff_false; rewrite mem_true; auto. }
    destruct op as [c|c|c|]; cbn [visit_op visit_spec op_ok] in *.
    - unfold vm_visit. rewrite Hs. destruct (in_dec cell_dec c (geo_nodes G)) as [Hin|Hn].
      + rewrite (proj2 (mem_true _ _) Hin).
        destruct (on_board_offset RF c Hin) as (x & y & Hx & Hy & -> & Ho & _). rewrite Ho.
        cbn [bind fst snd]. destruct (H2 x Hx) as (b & B1 & B2 & B3).
        rewrite (vec_index_ok _ _ _ _ (proj1 Hx) B1). cbn [bind].
        unfold bits_put. replace ((0 <=? y) && (y <? Z.of_nat (length b))) with true by lia.
        cbn [bind]. rewrite B3 by auto. eexists. split; [reflexivity|].
        eapply vm_set_rep; eauto.
      + destruct (Hout c Hop Hn) as (O1 & O2 & O3). rewrite O1, O2. cbn [bind fst snd]. eauto.
    - unfold vm_unvisit. rewrite Hs. destruct (in_dec cell_dec c (geo_nodes G)) as [Hin|Hn].
      + destruct (on_board_offset RF c Hin) as (x & y & Hx & Hy & -> & Ho & _). rewrite Ho.
        cbn [bind fst snd]. destruct (H2 x Hx) as (b & B1 & B2 & B3).
        rewrite (vec_index_ok _ _ _ _ (proj1 Hx) B1). cbn [bind].
        unfold bits_set. replace ((0 <=? y) && (y <? Z.of_nat (length b))) with true by lia.
        cbn [bind]. eexists. split; [reflexivity|].
        eapply vm_set_rep; eauto. intros c. rewrite mem_filter.
        destruct (pair_eqb c (cell x y)); reflexivity.
      + destruct (Hout c Hop Hn) as (O1 & O2 & O3). rewrite O1. cbn [bind fst snd].
        eexists. split; [reflexivity|]. destruct HV as (V1 & V2 & V3). split; auto. split.
        * intros x Hx. destruct (V2 x Hx) as (b & B1 & B2 & B3). exists b. split; auto. split; auto.
          intros y Hy. rewrite B3 by auto. rewrite mem_filter.
          replace (pair_eqb (cell x y) c) with false; auto.
          symmetry. apply not_true_iff_false. rewrite pair_eqb_eq. intros Heq. apply Hn.
          rewrite <- Heq. apply (cell_in RF); auto.
        * intros c' Hc'. apply filter_In in Hc'. apply V3. tauto.
    - unfold vm_is_visited. rewrite Hs. destruct (in_dec cell_dec c (geo_nodes G)) as [Hin|Hn].
      + destruct (on_board_offset RF c Hin) as (x & y & Hx & Hy & -> & Ho & _). rewrite Ho.
        cbn [bind fst snd]. destruct (H2 x Hx) as (b & B1 & B2 & B3).
        rewrite (vec_index_ok _ _ _ _ (proj1 Hx) B1). cbn [bind].
        unfold bits_contains. replace (0 <=? y) with true by lia. rewrite B3 by auto. eauto.
      + destruct (Hout c Hop Hn) as (O1 & O2 & O3). rewrite O1, O3. cbn [bind fst snd]. eauto.
    - cbn [fst snd]. eexists. split; [reflexivity|]. unfold reset_map. split; [|split; [|intros c []]].
      + rewrite map_length. auto.
      + intros x Hx. destruct (H2 x Hx) as (b & B1 & B2 & B3). exists (bits_clear b).
        rewrite nth_error_map, B1. split; auto. unfold bits_clear. split; [rewrite repeat_length; auto|].
        intros y Hy. rewrite nth_repeat_lt by lia. reflexivity.
  Qed.

  Lemma visit_run_ok : forall (g : graph) ops vm marked, g_s g = s -> VMrep vm marked ->
    Forall op_ok ops ->
    visit_run m g vm ops = Ok (visit_spec_run (geo_nodes G) marked ops).
  Proof using RF.
    intros g ops. induction ops as [|op ops IH]; intros vm marked Hs HV HF; cbn [visit_run visit_spec_run]; auto.
    inversion HF; subst. destruct (visit_op_ok g vm marked op Hs HV H1) as (vm' & E1 & E2).
    rewrite E1. cbn [bind]. destruct (visit_spec (geo_nodes G) marked op) as [b marked'].
    cbn [fst snd] in *. rewrite (IH vm' marked' Hs E2 H2). reflexivity.
  Qed.
End V.
