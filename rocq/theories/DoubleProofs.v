(** * DoubleProofs: into how many parts a board of doubled coordinates falls (C82). *)

From Coq Require Import Permutation.
From Verif Require Import Machine Store Axes Shapes Lattice Spec Basics AxisProofs GeoProofs
  StoreProofs GraphProofs RepProofs Main1 Kruskal Spec7 KruskalProofs KruskalRun KruskalMain.
From Coq Require Import ZifyBool ZifyNat.
Ltac Zify.zify_post_hook ::= Z.div_mod_to_equations.

(** Any choice of one node of each part has as many as there are parts. *)
Lemma components_ncl : forall X (dec : forall a b : X, {a = b} + {a <> b}) nodes es reps,
  Components nodes es reps -> length reps = ncl dec nodes es.
Proof.
  intros X dec nodes es reps (H1 & H2 & H3 & H4). unfold ncl.
  rewrite <- (map_length (lab dec es) reps). apply Permutation_length, NoDup_Permutation.
  - clear H1 H3. induction H2 as [|a l Ha Hl IH]; cbn [map]; constructor.
    + intros Hi. apply in_map_iff in Hi. destruct Hi as (b & Eb & Hb). apply (lab_linked dec) in Eb.
      apply Ha. rewrite (H4 a b); auto; [left; auto|right; auto|]. apply linked_sym; auto.
    + apply IH. intros b c Hb Hc. apply H4; right; auto.
  - apply NoDup_nodup.
  - intros x. rewrite nodup_In, !in_map_iff. split.
    + intros (a & Ea & Ha). exists a. auto.
    + intros (a & Ea & Ha). destruct (H3 a Ha) as (b & Hb & L). exists b. split; auto.
      apply (lab_linked dec) in L. congruence.
Qed.

(** What no edge touches is linked to nothing else. *)
Lemma linked_alone : forall X (es : list (X * X)) (P : X -> Prop),
  (forall a b, In (a, b) es -> ~ P a /\ ~ P b) ->
  forall a b, Linked es a b -> (P a -> a = b) /\ (P b -> a = b).
Proof.
  intros X es P HP a b L. induction L as [a b Hi|a|a b L IH|a b c L1 IH1 L2 IH2].
  - destruct (HP a b Hi). tauto.
  - tauto.
  - split; intros Hx; symmetry; tauto.
  - destruct IH1 as [A1 A2], IH2 as [B1 B2]. split; intros Hx.
    + specialize (A1 Hx). subst b. auto.
    + specialize (B2 Hx). subst b. auto.
Qed.

Section Double.
  Context {N E : Type} {m : mode} {w h : Z} (F : fits w h).
  Let s := double_shape w h.
  Let G := double_code_geometry w h.
  Context (g : LatticeGraph Cell AxisR AxisDR N E) (nf : Cell -> N) (ef : Cell -> AxisR -> E)
    (HB : Built m s G g nf ef).
  Notation es := (pairs (G := G) ef).

  Lemma double_pairs : forall a b, In (a, b) es <->
    In a (board w h double_cell) /\ exists x, geo_step G a (ag_fwd hexr_axes x) = Some b.
  Proof.
    intros a b. unfold pairs, spec_edge_references. rewrite in_map_iff. split.
    - intros (r & Er & Hr). apply in_flat_map in Hr. destruct Hr as (c & Hc & Hr).
      apply in_flat_map in Hr. destruct Hr as (x & Hx & Hr).
      destruct (geo_step G c (ag_fwd (geo_ax G) x)) as [t|] eqn:Et; [|destruct Hr].
      destruct Hr as [<-|[]]. cbn [er_source er_target] in Er. injection Er as <- <-.
      split; auto. exists x. exact Et.
    - intros (Ha & x & Hx). eexists. split.
      2:{ apply in_flat_map. exists a. split; [exact Ha|]. apply in_flat_map. exists x.
          split; [destruct x; cbn; auto|].
          match goal with |- In _ (match ?t with _ => _ end) => change t with (geo_step G a (ag_fwd hexr_axes x)) end.
          rewrite Hx. left. reflexivity. }
      reflexivity.
  Qed.

  Lemma double_edges : forall x y x' y', In ((x, y), (x', y')) es <->
    In (x, y) (board w h double_cell) /\ x' < w /\ 0 <= y' < h /\
    ((x' = x + 1 /\ (y' = y + 1 \/ y' = y - 1)) \/ (x' = x + 2 /\ y' = y)).
  Proof.
    intros x y x' y'. rewrite double_pairs. split.
    - intros (Ha & d & Hd). split; auto. apply in_double in Ha.
      unfold G in Hd. cbn [geo_step double_code_geometry code_geometry double_shape sh_move_coord] in Hd.
      rewrite double_step in Hd by (auto; lia).
      destruct d; cbn [ag_fwd hexr_axes] in Hd;
        match type of Hd with context [if ?c then _ else _] => destruct c eqn:Ec; [|discriminate] end;
        injection Hd as <- <-; lia.
    - intros (Ha & H1 & H2 & H3). split; auto. apply in_double in Ha.
      assert (ST : forall d, geo_step G (x, y) d = match double_move_r w h Release (x, y) d with
        | Ok o => o | Fail _ => None end) by reflexivity.
      destruct H3 as [[-> [-> | ->]]|[-> ->]];
        [exists ANE|exists ASE|exists AE]; rewrite ST, double_step by (auto; lia);
        cbn [ag_fwd hexr_axes];
        match goal with |- context [if ?c then _ else _] => replace c with true by lia end; reflexivity.
  Qed.

  Lemma double_nodup : NoDup (board w h double_cell).
  Proof. destruct (c05 (st_double w h F) g nf ef HB) as (_ & _ & ND & _). exact ND. Qed.

  Lemma double_small : forall a b, In (a, b) es -> fst a < w /\ fst b < w.
  Proof. intros [x y] [x' y'] Hi. apply double_edges in Hi. cbn [fst]. lia. Qed.

  (** What lies in the first [w] of the doubled columns hangs together. *)
  Lemma double_row : forall (n : nat) x y, In (x, y) (board w h double_cell) -> x < w ->
    x / 2 = Z.of_nat n -> Linked es (y mod 2, y) (x, y).
  Proof.
    induction n as [|n IH]; intros x y Hi Hx En; pose proof Hi as Hc; apply in_double in Hc.
    - replace x with (y mod 2) by lia. apply linked_refl.
    - assert (Hp : In (x - 2, y) (board w h double_cell)) by (apply in_double; lia).
      eapply linked_trans; [apply (IH (x - 2) y); auto; lia|].
      apply linked_edge, double_edges. split; auto. lia.
  Qed.

  Lemma double_column : 2 <= w -> forall n : nat, Z.of_nat n < h ->
    Linked es (0, 0) (Z.of_nat n mod 2, Z.of_nat n).
  Proof.
    intros Hw. induction n as [|n IH]; intros Hn; [apply linked_refl|].
    eapply linked_trans; [apply IH; lia|].
    destruct (Z.eq_dec (Z.of_nat n mod 2) 0) as [E0|E0].
    - apply linked_edge, double_edges. rewrite in_double. lia.
    - apply linked_sym, linked_edge, double_edges. rewrite in_double. lia.
  Qed.

  Notation far := (filter (fun c => w <=? fst c) (board w h double_cell)).

  Lemma double_components : 2 <= w -> 1 <= h ->
    Components (board w h double_cell) es ((0, 0) :: far).
  Proof.
    intros Hw Hh.
    assert (O : In (0, 0) (board w h double_cell)) by (apply in_double; lia).
    assert (ND : NoDup (board w h double_cell)).
    { exact double_nodup. }
    split; [|split; [|split]].
    - intros c [<-|Hc]; auto. apply filter_In in Hc. tauto.
    - constructor; [|apply NoDup_filter; auto]. intros Hi. apply filter_In in Hi. cbn [fst] in Hi. lia.
    - intros [x y] Hc. destruct (Z.lt_ge_cases x w) as [Hx|Hx].
      + exists (0, 0). split; [left; auto|]. pose proof Hc as Hb. apply in_double in Hb.
        apply linked_sym. eapply linked_trans; [apply (double_column Hw (Z.to_nat y)); lia|].
        replace (Z.of_nat (Z.to_nat y)) with y by lia.
        apply (double_row (Z.to_nat (x / 2))); auto. lia.
      + exists (x, y). split; [|apply linked_refl]. right. apply filter_In. cbn [fst]. split; auto. lia.
    - assert (FAR : forall a, In a far -> w <= fst a).
      { intros a Ha. apply filter_In in Ha. lia. }
      assert (AL : forall a b, Linked es a b -> (w <= fst a -> a = b) /\ (w <= fst b -> a = b)).
      { apply (linked_alone _ _ (fun c => w <= fst c)). intros a b Hi. apply double_small in Hi. lia. }
      intros a b [<-|Ha] [<-|Hb] L; destruct (AL _ _ L) as [L1 L2]; auto.
  Qed.

  Lemma double_narrow : w = 1 -> Components (board w h double_cell) es (board w h double_cell).
  Proof.
    intros Hw.
    assert (NO : forall a b, ~ In (a, b) es).
    { intros [x y] [x' y'] Hi. apply double_edges in Hi. rewrite in_double in Hi. lia. }
    split; [|split; [|split]].
    - intros c; auto.
    - exact double_nodup.
    - intros a Ha. exists a. split; auto. apply linked_refl.
    - intros a b _ _ L. apply (linked_alone _ _ (fun _ => True)) in L; [tauto|].
      intros x y Hi. destruct (NO _ _ Hi).
  Qed.

  Lemma c82_double : forall T (U : UFOps T), UFOK U ->
    connected_components U (node_bound m g) (to_index m g) (edge_references g)
      (edge_references_next m g) (fun e => Ok (er_source e)) (fun e => Ok (er_target e)) =
    Ok (if w =? 1 then Z.of_nat (length (geo_nodes G))
        else match geo_nodes G with [] => 0 | _ => 1 + Z.of_nat (length far) end).
  Proof.
    intros T U UOK.
    assert (CL : forall r, In r (spec_edge_references G ef) -> In (er_target r) (geo_nodes G)).
    { intros r Hr. assert (Hi : In (er_source r, er_target r) es) by (apply in_map_iff; eauto).
      destruct (er_source r) as [x y], (er_target r) as [x' y'].
      apply double_edges in Hi. destruct Hi as (Ha & Hi). apply in_double in Ha.
      change (In (x', y') (board w h double_cell)). apply in_double. lia. }
    rewrite (kl_count (st_double w h F) g nf ef HB CL U UOK). f_equal.
    match goal with |- Z.of_nat ?n = _ => change n with (ncl cell_dec (board w h double_cell) es) end.
    change (geo_nodes G) with (board w h double_cell).
    destruct (Z.eqb_spec w 1) as [Ew|Ew].
    - rewrite <- (components_ncl _ cell_dec _ _ _ (double_narrow Ew)). auto.
    - assert (CS : board w h double_cell = [] \/ exists c, In c (board w h double_cell)).
      { destruct (board w h double_cell) as [|c l]; [left; auto|right; exists c; left; auto]. }
      destruct CS as [CS|([x y] & Hc)]; [rewrite CS; reflexivity|].
      pose proof Hc as Hd. apply in_double in Hd.
      rewrite <- (components_ncl _ cell_dec _ _ _ (double_components ltac:(lia) ltac:(lia))).
      cbn [length]. destruct (board w h double_cell); [destruct Hc|].
      rewrite Nat2Z.inj_succ, Z.add_1_l. reflexivity.
  Qed.
End Double.
