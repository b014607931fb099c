(** * DropProofs: what dropping, cloning and comparing a graph does. *)

From Verif Require Import Machine Store Axes Shapes Lattice Spec Spec3 Basics AxisProofs
  GeoProofs ShapeProofs StoreProofs GraphProofs RepProofs IterProofs EdgeProofs Main1.
From Coq Require Import ZifyBool ZifyNat.
Ltac Zify.zify_post_hook ::= Z.div_mod_to_equations.

Section R.
  Context {A D N E : Type} {m : mode} {s : Shape Cell A D} {G : Geometry A D}
    {cell : Z -> Z -> Cell} (RF : Refines m s G cell).
  Notation w := (sh_horizontal s).
  Notation h := (sh_vertical s).
  Notation ax := (sh_axis s).
  Notation geo := (geo_ax G).
  Notation graph := (LatticeGraph Cell A D N E).
  Let AX : AxisOK m ax geo := rf_axis _ _ _ _ RF.

  (** ** The memory of a built graph *)

  Lemma array_cells : forall X (a : Array2 X) (f : Cell -> X), array_wf a w h ->
    (forall x y, 0 <= x < w -> 0 <= y < h -> array_get a x y = Some (f (cell x y))) ->
    a = mkArray2 w h (map f (geo_nodes G)).
  Proof using RF.
    intros X a f (W1 & W2 & W3) Hg. destruct a as [r c l]. cbn [nrows ncols cells] in *. subst r c. f_equal.
    apply nth_error_ext. intros i. rewrite nth_error_map.
    pose proof (wh_range RF) as W.
    destruct (Z_lt_dec (Z.of_nat i) (w * h)) as [Hi|Hi].
    - destruct (index_split RF (Z.of_nat i)) as (I1 & I2 & I3); [lia|].
      specialize (Hg _ _ I1 I2). unfold array_get, in_bounds, flat_index in Hg.
      cbn [nrows ncols cells] in Hg.
      destruct (_ && _) eqn:Eb in Hg; [|discriminate].
      rewrite <- I3, Nat2Z.id in Hg. rewrite Hg.
      pose proof (nodes_nth RF (Z.of_nat i) ltac:(lia)) as Hn. rewrite Nat2Z.id in Hn. rewrite Hn.
      reflexivity.
    - rewrite (proj2 (nth_error_None (geo_nodes G) i)) by (rewrite (nodes_length RF); lia).
      apply nth_error_None. lia.
  Qed.

  Definition edge_array (ef : Cell -> A -> E) (a : A) : Array2 (option E) :=
    mkArray2 w h (map (fun c => opt_edge (G := G) ef c a) (geo_nodes G)).
  Definition memory (nf : Cell -> N) (ef : Cell -> A -> E) : graph :=
    mkGraph (mkArray2 w h (map (fun c => Some (nf c)) (geo_nodes G)))
      (map (edge_array ef) (ag_axes geo)) s.

  Lemma rep_memory : forall (g : graph) nf ef, Rep (G := G) (cell := cell) (s := s) g nf ef ->
    g = memory nf ef.
  Proof using RF AX.
    intros [n e s'] nf ef [Hs (H1 & H2 & H3 & H4)]. cbn [g_nodes g_edges g_s] in *. subst s'.
    unfold memory. f_equal.
    - apply array_cells; auto.
    - apply nth_error_ext. intros i. rewrite nth_error_map.
      destruct (nth_error (ag_axes geo) i) as [a|] eqn:Ea; cbn [option_map].
      + destruct (H4 a) as (arr & Ha & Hw & Hg). rewrite (ao_nth_inv _ _ _ AX _ _ Ea) in Ha.
        rewrite Ha. f_equal. apply (array_cells _ arr (fun c => opt_edge (G := G) ef c a)); auto.
      + apply nth_error_None. apply nth_error_None in Ea.
        rewrite H3, (ao_count _ _ _ AX). exact Ea.
  Qed.

  (** ** Dropping *)

  Lemma numbered_from : forall X (l : list X) k, combine (List.seq k (length l)) l =
    map (fun p => (k + fst p, snd p)%nat) (numbered l).
  Proof.
    intros X l k. unfold numbered. revert k.
    assert (H : forall (l : list X) k j, combine (List.seq (k + j) (length l)) l =
      map (fun p => (k + fst p, snd p)%nat) (combine (List.seq j (length l)) l)).
    { clear. induction l as [|x l IH]; intros k j; cbn [length List.seq combine map]; auto.
      f_equal. rewrite <- IH. f_equal. f_equal. lia. }
    intros k. rewrite <- H. f_equal. f_equal. lia.
  Qed.

  Lemma drop_zip_ok : forall (ef : Cell -> A -> E) a j d, d = ag_fwd geo a -> forall l i,
    node_pos (G := G) (s := s) i _ (fun c => c) l ->
    drop_zip (E := E) m s d j i (Z.to_nat i) (map (fun c => opt_edge (G := G) ef c a) l) =
    Ok (flat_map (fun kc => drops_of_slot G j a (fst kc) (snd kc))
         (combine (List.seq (Z.to_nat i) (length l)) l)).
  Proof using RF AX.
    intros ef a j d ->. induction l as [|c l IH]; intros i HP.
    - pose proof (node_indices_inv RF i [] HP) as (it' & Hn & _). cbn [map drop_zip]. rewrite Hn.
      reflexivity.
    - pose proof (node_indices_inv RF i (c :: l) HP) as (it' & Hn & HP').
      pose proof (node_pos_case RF _ _ _ _ HP) as (Hlt & HP2 & _ & Hin & Hc).
      assert (it' = i + 1) as ->.
      { destruct HP as [Hi _]. unfold node_indices_next in Hn. rewrite (node_count_ok RF) in Hn.
        cbn [bind] in Hn. replace (i <? w * h) with true in Hn by lia.
        rewrite (index_to_coordinate_ok RF) in Hn by lia. cbn [bind] in Hn.
        rewrite (succ_ok RF) in Hn by lia. cbn [bind] in Hn. congruence. }
      cbn [map drop_zip]. rewrite Hn. cbn [bind]. rewrite <- Hc in Hin.
      rewrite (rf_move _ _ _ _ RF) by auto. cbn [bind].
      destruct HP as [Hi _]. specialize (IH (i + 1) HP2).
      replace (Z.to_nat (i + 1)) with (S (Z.to_nat i)) in IH by lia. rewrite IH. cbn [bind].
      cbn [length List.seq combine flat_map fst snd]. f_equal. f_equal.
      unfold drops_of_slot, opt_edge. destruct (geo_step G c (ag_fwd geo a)); reflexivity.
  Qed.

  Lemma drop_axes_ok : forall ef l j, (forall i a, nth_error l i = Some a -> nth_error (ag_axes geo) (j + i) = Some a) ->
    drop_axes (E := E) m s j (map (edge_array ef) l) =
    Ok (flat_map (fun ja => flat_map (fun kc => drops_of_slot G (fst ja) (snd ja) (fst kc) (snd kc))
      (numbered (geo_nodes G))) (combine (List.seq j (length l)) l)).
  Proof using RF AX.
    intros ef. induction l as [|a l IH]; intros j Hl; [reflexivity|].
    cbn [map drop_axes length List.seq combine flat_map fst snd].
    assert (Ha : nth_error (ag_axes geo) j = Some a).
    { specialize (Hl 0%nat a eq_refl). rewrite Nat.add_0_r in Hl. exact Hl. }
    rewrite (ao_from_index_unchecked _ _ _ AX _ _ Ha). cbn [bind].
    rewrite (ao_fwd _ _ _ AX). cbn [bind].
    pose proof (node_pos_start RF Cell (fun c => c)) as HP. rewrite map_id in HP.
    pose proof (drop_zip_ok ef a j _ eq_refl _ 0 HP) as Hz. cbn [edge_array cells].
    change (Z.to_nat 0) with 0%nat in Hz. unfold edge_array at 1. cbn [cells]. rewrite Hz. cbn [bind].
    rewrite IH; [reflexivity|].
    intros i b Hb. replace (S j + i)%nat with (j + S i)%nat by lia. apply Hl. exact Hb.
  Qed.

  Lemma drop_ok : forall (g : graph) nf ef nn ne, Rep (G := G) (cell := cell) (s := s) g nf ef ->
    drop_graph m nn ne g = Ok ((if ne then edge_drops G else []) ++ (if nn then node_drops G else [])).
  Proof using RF AX.
    intros g nf ef nn ne R. rewrite (rep_memory _ _ _ R). unfold drop_graph, memory.
    cbn [g_s g_edges g_nodes cells].
    assert (Hn : map (fun p => DropNode (fst p) (is_init (snd p)))
        (combine (List.seq 0 (length (map (fun c => Some (nf c)) (geo_nodes G))))
           (map (fun c => Some (nf c)) (geo_nodes G))) = node_drops G).
    { rewrite map_length. unfold node_drops, numbered. generalize 0%nat.
      induction (geo_nodes G) as [|c l IH]; intros k; cbn [length List.seq combine map]; auto.
      cbn [fst snd is_init]. f_equal. apply IH. }
    rewrite Hn. destruct ne; [|reflexivity]. rewrite drop_axes_ok by auto. reflexivity.
  Qed.

  (** ** Cloning *)

  Lemma clone_cells : forall X copy (a : Array2 (option X)), (forall x, In x (cells a) -> x <> None) ->
    clone_array copy a = Ok a.
  Proof.
    intros X copy a H. unfold clone_array. destruct copy; [reflexivity|].
    assert (HF : forall l acc, (forall x, In x l -> x <> None) ->
      fold_outcome (fun l (x : option X) => let! w := read_slot x in Ok (l ++ [Some w])) l acc = Ok (acc ++ l)).
    { induction l as [|x l IH]; intros acc Hl; cbn [fold_outcome].
      - rewrite app_nil_r. reflexivity.
      - destruct x as [x|]; [|exfalso; apply (Hl None); simpl; auto]. cbn [read_slot bind].
        rewrite IH by (intros; apply Hl; simpl; auto). rewrite <- app_assoc. reflexivity. }
    rewrite HF by auto. cbn [bind app]. destruct a; reflexivity.
  Qed.

  Lemma clone_uninit : forall X (a : Array2 (option X)), In None (cells a) ->
    clone_array false a = Fail FUB.
  Proof.
    intros X a H. unfold clone_array.
    assert (HF : forall l acc, In None l ->
      fold_outcome (fun l (x : option X) => let! w := read_slot x in Ok (l ++ [Some w])) l acc = Fail FUB).
    { induction l as [|x l IH]; intros acc Hl; [destruct Hl|]. cbn [fold_outcome].
      destruct x as [x|]; cbn [read_slot bind]; [|reflexivity].
      apply IH. destruct Hl as [Hl|Hl]; [discriminate|auto]. }
    rewrite HF by auto. reflexivity.
  Qed.

  Definition has_gap (ef : Cell -> A -> E) (a : A) : Prop := In None (cells (edge_array ef a)).

  Lemma gap_iff : forall ef a, has_gap ef a <-> exists c, In c (geo_nodes G) /\ ~ edge_exists G c a.
  Proof.
    intros ef a. unfold has_gap, edge_array. cbn [cells]. rewrite in_map_iff. unfold opt_edge, edge_exists.
    split.
    - intros (c & Hc & Hin). exists c. split; auto.
      destruct (geo_step G c (ag_fwd geo a)); [discriminate|]. intros [_ Hx]. congruence.
    - intros (c & Hin & Hn). exists c. split; auto.
      destruct (geo_step G c (ag_fwd geo a)); [|reflexivity]. exfalso. apply Hn. split; [auto|discriminate].
  Qed.

  Lemma no_gap : forall ef a, ~ has_gap ef a -> forall x, In x (cells (edge_array ef a)) -> x <> None.
  Proof. intros ef a H x Hx ->. auto. Qed.

  Lemma gap_dec : forall ef a, has_gap ef a \/ ~ has_gap ef a.
  Proof.
    intros ef a. unfold has_gap. induction (cells (edge_array ef a)) as [|x l IH]; [auto|].
    destruct x as [x|]; [|left; left; auto]. destruct IH as [H|H]; [left; right; auto|].
    right. intros [H'|H']; [discriminate|auto].
  Qed.

  Lemma clone_edges : forall ef copy l acc,
    (copy = true \/ forall a, In a l -> ~ has_gap ef a) ->
    fold_outcome (fun l (a : Array2 (option E)) => let! a' := clone_array copy a in Ok (l ++ [a']))
      (map (edge_array ef) l) acc = Ok (acc ++ map (edge_array ef) l).
  Proof.
    intros ef copy. induction l as [|a l IH]; intros acc Hl; cbn [map fold_outcome].
    - rewrite app_nil_r. reflexivity.
    - assert (Hc : clone_array copy (edge_array ef a) = Ok (edge_array ef a)).
      { destruct Hl as [-> | Hl]; [reflexivity|]. apply clone_cells. apply no_gap. apply Hl. simpl; auto. }
      rewrite Hc. cbn [bind]. rewrite IH; [rewrite <- app_assoc; reflexivity|].
      destruct Hl as [-> | Hl]; [auto|]. right. intros; apply Hl; simpl; auto.
  Qed.

  Lemma clone_edges_gap : forall ef a l acc, In a l -> has_gap ef a ->
    fold_outcome (fun l (a : Array2 (option E)) => let! a' := clone_array false a in Ok (l ++ [a']))
      (map (edge_array ef) l) acc = Fail FUB.
  Proof.
    intros ef a. induction l as [|b l IH]; intros acc Hl Hg; [destruct Hl|]. cbn [map fold_outcome].
    destruct (gap_dec ef b) as [Hb|Hb].
    - rewrite clone_uninit by auto. reflexivity.
    - rewrite clone_cells by (apply no_gap; auto). cbn [bind]. apply IH; auto.
      destruct Hl as [-> | Hl]; [contradiction|auto].
  Qed.

  Lemma axis_in : forall a, In a (ag_axes geo).
  Proof using AX. intros a. eapply nth_error_In. apply (ao_nth _ _ _ AX). Qed.

  Lemma clone_memory : forall nf ef cn ce, ce = true \/ all_edges_exist G ->
    clone_graph cn ce (memory nf ef) = Ok (memory nf ef).
  Proof.
    intros nf ef cn ce H. unfold clone_graph, memory. cbn [g_nodes g_edges g_s].
    rewrite clone_cells.
    2:{ cbn [cells]. intros x Hx. apply in_map_iff in Hx. destruct Hx as (c & <- & _). discriminate. }
    cbn [bind]. rewrite clone_edges; [reflexivity|].
    destruct H as [H|H]; [auto|]. right. intros a _ Hg. apply gap_iff in Hg.
    destruct Hg as (c & Hc & Hn). apply Hn. apply H. auto.
  Qed.

  Lemma clone_memory_gap : forall nf ef cn c a, In c (geo_nodes G) -> ~ edge_exists G c a ->
    clone_graph cn false (memory nf ef) = Fail FUB.
  Proof using AX.
    intros nf ef cn c a Hc Ha. unfold clone_graph, memory. cbn [g_nodes g_edges g_s].
    rewrite clone_cells.
    2:{ cbn [cells]. intros x Hx. apply in_map_iff in Hx. destruct Hx as (c' & <- & _). discriminate. }
    cbn [bind]. rewrite (clone_edges_gap ef a); [reflexivity|apply axis_in|].
    apply gap_iff. eauto.
  Qed.

  (** ** Comparing *)

  Lemma eq_cells_refl : forall X (eqb : X -> X -> bool) l, (forall x, eqb x x = true) ->
    eq_cells eqb l l = if existsb (fun x => match x with None => true | _ => false end) l
                       then Fail FUB else Ok true.
  Proof.
    intros X eqb l He. induction l as [|x l IH]; [reflexivity|]. cbn [eq_cells existsb].
    destruct x as [x|]; cbn [read_slot bind]; [|reflexivity]. rewrite He. exact IH.
  Qed.

  Lemma existsb_none : forall X (l : list (option X)),
    existsb (fun x => match x with None => true | _ => false end) l = true <-> In None l.
  Proof.
    intros X l. rewrite existsb_exists. split.
    - intros (x & Hx & Hb). destruct x; [discriminate|auto].
    - intros H. exists None. auto.
  Qed.

  Lemma eq_array_refl : forall X (eqb : X -> X -> bool) a, (forall x, eqb x x = true) ->
    eq_array eqb a a = if existsb (fun x => match x with None => true | _ => false end) (cells a)
                       then Fail FUB else Ok true.
  Proof.
    intros X eqb a He. unfold eq_array. rewrite !Z.eqb_refl. cbn [andb]. apply eq_cells_refl; auto.
  Qed.

  Lemma eq_memory : forall nf ef neq eeq sq, (forall x, neq x x = true) -> (forall x, eeq x x = true) ->
    (all_edges_exist G -> eq_graph neq eeq sq (memory nf ef) (memory nf ef) = Ok sq) /\
    (forall c a, In c (geo_nodes G) -> ~ edge_exists G c a ->
       eq_graph neq eeq sq (memory nf ef) (memory nf ef) = Fail FUB).
  Proof using AX.
    intros nf ef neq eeq sq Hn He. unfold eq_graph, memory. cbn [g_nodes g_edges].
    rewrite eq_array_refl by auto. cbn [cells].
    assert (Hx : existsb (fun x => match x with None => true | _ => false end)
                   (map (fun c => Some (nf c)) (geo_nodes G)) = false).
    { induction (geo_nodes G); cbn; auto. }
    rewrite Hx. clear Hx. cbn [bind]. split.
    - intros Hall. assert (Hl : forall l, eq_arrays eeq (map (edge_array ef) l) (map (edge_array ef) l) = Ok true).
      { induction l as [|a l IH]; [reflexivity|]. cbn [map eq_arrays]. rewrite eq_array_refl by auto.
        destruct (existsb _ _) eqn:Eb.
        - exfalso. apply existsb_none in Eb. pose proof (proj1 (gap_iff ef a) Eb) as Eb2. clear Eb; rename Eb2 into Eb.
          destruct Eb as (c & Hc & Hne). auto.
        - cbn [bind]. exact IH. }
      rewrite Hl. reflexivity.
    - intros c a Hc Hne.
      assert (Hl : forall l, In a l -> eq_arrays eeq (map (edge_array ef) l) (map (edge_array ef) l) = Fail FUB).
      { induction l as [|b l IH]; intros Hin; [destruct Hin|]. cbn [map eq_arrays]. rewrite eq_array_refl by auto.
        destruct (existsb _ _) eqn:Eb; [reflexivity|]. cbn [bind]. apply IH.
        destruct Hin as [-> | Hin]; auto. exfalso.
        assert (Hg : has_gap ef a) by (apply gap_iff; eauto). apply existsb_none in Hg. congruence. }
      rewrite Hl by apply axis_in. reflexivity.
  Qed.
End R.

(** ** Every board has a slot without edge *)

Lemma find_nothing : forall X (f : X -> bool) l, (forall x, In x l -> f x = false) -> find f l = None.
Proof.
  induction l as [|x l IH]; intros H; cbn [find]; [reflexivity|].
  rewrite (H x) by (left; reflexivity). apply IH. intros y Hy. apply H. right. exact Hy.
Qed.

Ltac board_gap x y a :=
  match goal with |- context [board _ _ ?cell] => exists (cell x y), a end;
  split; [apply in_board; exists x, y; repeat split; lia|];
  intros [_ Hne]; apply Hne; clear Hne.

Lemma pair_projections : forall X Y (p q : X * Y), p = q -> fst p = fst q /\ snd p = snd q.
Proof. intros X Y p q ->. auto. Qed.

Ltac no_place :=
  apply find_nothing; let c' := fresh in intros c' Hc'; apply in_board in Hc';
  destruct Hc' as (x' & y' & Hx' & Hy' & ->);
  apply Bool.not_true_is_false; rewrite same_place_iff;
  try match goal with b : HexR |- _ => destruct b end; try match goal with b : HexQ |- _ => destruct b end;
  cbn [fst snd vadd ag_vec ag_fwd geo_ax square_axes diagonal_axes hexr_axes hexq_axes directed_axes square_vec diagonal_vec
       hexr_vec hexq_vec square_geometry rect_geometry offset_r_geometry offset_r_loop_geometry
       axial_r_geometry axial_r_loop_geometry axial_q_geometry axial_q_loop_geometry axial_geometry
       offset_r_pos axial_r_pos axial_q_pos axial_cell co_r co_q];
  (intros [[_ He]|(Hp & k' & He1 & He2)];
   [apply pair_projections in He; cbv beta delta [fst snd vadd axial_q_pos axial_r_pos axial_cell offset_r_pos] iota in He; lia | cbn [fst snd] in *; try lia; nia]).

Ltac code_board Hc :=
  cbn [geo_nodes rect_code_geometry axial_code_geometry double_code_geometry code_geometry] in *;
  apply in_board in Hc; destruct Hc as (x & y & Hx & Hy & _).
Ltac code_step :=
  cbn [geo_step geo_ax code_geometry rect_code_geometry axial_code_geometry double_code_geometry
    hexq_axes hexr_axes directed_axes ag_fwd sh_move_coord hex_offset_q hex_offset_q_dir
    hex_offset_q_lew hex_axial_r_lew hex_axial_r_dir_lew hex_axial_q_lew hex_axial_q_dir_lew
    offset_shape axial_lew_shape double_shape].

Lemma axial_last : forall co w h, 1 <= w -> 1 <= h -> In (axial_cell co 0 (h - 1)) (board w h (axial_cell co)).
Proof. intros co w h Hw Hh. apply in_board. exists 0, (h - 1). repeat split; lia. Qed.

Lemma some_gap : forall A D (s : Shape Cell A D) G c, Stored s G -> In c (geo_nodes G) ->
  exists c a, In c (geo_nodes G) /\ ~ edge_exists G c a.
Proof.
  intros A D s G c H Hc.
  destruct H as [A D s G H|b w h F|b w h F|b w h F|k b w h F Hf|k b w h F Hf
    |k b w h F Hf|k b w h F Hf|w h F].
  - destruct H;
      cbn [geo_nodes square_geometry rect_geometry offset_r_geometry offset_r_loop_geometry
           axial_r_geometry axial_r_loop_geometry axial_q_geometry axial_q_loop_geometry axial_geometry] in *;
      apply in_board in Hc; destruct Hc as (x & y & Hx & Hy & _).
    + board_gap (w - 1) 0 SX. no_place.
    + board_gap (w - 1) 0 DX. no_place.
    + board_gap (w - 1) 0 GE. no_place.
    + board_gap (w - 1) 0 DE. no_place.
    + board_gap 0 (h - 1) ANE. no_place.
    + board_gap 0 (h - 1) RNE. no_place.
    + board_gap 0 (h - 1) ANE. no_place.
    + board_gap 0 (h - 1) ANE. no_place.
    + board_gap 0 (h - 1) RNE. no_place.
    + board_gap 0 (h - 1) BN. no_place.
    + board_gap 0 (h - 1) QN. no_place.
    + board_gap 0 (h - 1) ANE. no_place.
    + board_gap 0 (h - 1) RNE. no_place.
    + board_gap 0 (h - 1) BN. no_place.
    + board_gap 0 (h - 1) QN. no_place.
  - code_board Hc. board_gap 0 (h - 1) BN. code_step. rewrite offset_q_step by (auto; lia).
    split_ifs; try lia; reflexivity.
  - code_board Hc. board_gap 0 (h - 1) QN. code_step. rewrite offset_q_step by (auto; lia).
    split_ifs; try lia; reflexivity.
  - code_board Hc. board_gap (w - 1) (h - 1) BNE. code_step. rewrite offset_q_lew_step by (auto; lia).
    cbv zeta. split_ifs; try lia; reflexivity.
  - code_board Hc. pose proof (axial_last (co_r b) w h ltac:(lia) ltac:(lia)) as Hl.
    board_gap 0 (h - 1) ANE. code_step. rewrite co_r_convert.
    unfold axial_cell in *. rewrite axial_r_lew_step by auto. split_ifs; try lia; reflexivity.
  - code_board Hc. pose proof (axial_last (co_r b) w h ltac:(lia) ltac:(lia)) as Hl.
    board_gap 0 (h - 1) RNE. code_step. rewrite co_r_convert.
    unfold axial_cell in *. rewrite axial_r_lew_step by auto. split_ifs; try lia; reflexivity.
  - code_board Hc. pose proof (axial_last (co_q b) w h ltac:(lia) ltac:(lia)) as Hl.
    board_gap 0 (h - 1) BN. code_step. rewrite co_q_convert.
    unfold axial_cell in *. rewrite axial_q_lew_step by auto. split_ifs; try lia; reflexivity.
  - code_board Hc. pose proof (axial_last (co_q b) w h ltac:(lia) ltac:(lia)) as Hl.
    board_gap 0 (h - 1) QN. code_step. rewrite co_q_convert.
    unfold axial_cell in *. rewrite axial_q_lew_step by auto. split_ifs; try lia; reflexivity.
  - code_board Hc. board_gap (w - 1) 0 AE. code_step. unfold double_cell.
    rewrite double_step by (auto; lia). split_ifs; try lia; reflexivity.
Qed.

Section Stored.
  Context {A D N E : Type} {m : mode} {s : Shape Cell A D} {G : Geometry A D}
    (STO : Stored s G).
  Notation graph := (LatticeGraph Cell A D N E).

  Lemma c34 : forall (g : graph) nf ef nn ne, Built m s G g nf ef ->
    drop_graph m nn ne g = Ok ((if ne then edge_drops G else []) ++ (if nn then node_drops G else [])).
  Proof using STO.
    intros g nf ef nn ne HB. refine_store m STO. eapply (drop_ok RF). eapply (built_rep RF). eauto.
  Qed.

  Lemma nodes_of : forall (g : graph) nf ef c i, Built m s G g nf ef -> In c (geo_nodes G) ->
    to_index m g c = Ok i -> In (Z.to_nat i, c) (numbered (geo_nodes G)).
  Proof using STO.
    intros g nf ef c i HB Hc Hi. refine_store m STO. pose proof (built_rep RF _ _ _ HB) as [Hs _].
    apply (node_cell RF) in Hc. destruct Hc as (x & y & Hx & Hy & ->).
    unfold to_index in Hi. rewrite Hs in Hi. rewrite (to_index_ok RF) in Hi by auto. cbn [bind] in Hi.
    injection Hi as <-. unfold numbered.
    assert (Hn : nth_error (geo_nodes G) (Z.to_nat (x * sh_vertical s + y)) = Some (cell x y)).
    { rewrite (rf_nodes _ _ _ _ RF). apply board_nth; auto. }
    revert Hn. generalize (Z.to_nat (x * sh_vertical s + y)). generalize (cell x y). generalize (geo_nodes G).
    assert (H : forall l k (c : Cell) n, nth_error l n = Some c -> In ((k + n)%nat, c) (combine (List.seq k (length l)) l)).
    { induction l as [|z l IH]; intros k c n Hn; [destruct n; discriminate|].
      cbn [length List.seq combine]. destruct n as [|n]; cbn [nth_error] in Hn.
      - injection Hn as ->. left. f_equal. lia.
      - right. replace (k + S n)%nat with (S k + n)%nat by lia. apply IH. auto. }
    intros l c n Hn. apply (H l 0%nat c n Hn).
  Qed.

  Lemma c34_edge : forall (g : graph) nf ef nn c a i, Built m s G g nf ef -> In c (geo_nodes G) ->
    to_index m g c = Ok i -> exists l1 l2,
    (edge_exists G c a -> drop_graph m nn true g =
       Ok (l1 ++ [DropEdge (ax_to_index (sh_axis s) a) (Z.to_nat i) true;
                  DropEdge (ax_to_index (sh_axis s) a) (Z.to_nat i) true] ++ l2)) /\
    (~ edge_exists G c a -> drop_graph m nn true g =
       Ok (l1 ++ [DropEdge (ax_to_index (sh_axis s) a) (Z.to_nat i) false] ++ l2)).
  Proof using STO.
    intros g nf ef nn c a i HB Hc Hi.
    pose proof (nodes_of _ _ _ _ _ HB Hc Hi) as Hk. rewrite (c34 _ _ _ nn true HB).
    refine_store m STO. pose proof (rf_axis _ _ _ _ RF) as AX.
    set (j := ax_to_index (sh_axis s) a).
    assert (Hj : In (j, a) (numbered (ag_axes (geo_ax G)))).
    { pose proof (ao_nth _ _ _ AX a) as Hn. unfold numbered.
      assert (H : forall l k (c : A) n, nth_error l n = Some c -> In ((k + n)%nat, c) (combine (List.seq k (length l)) l)).
      { clear. induction l as [|z l IH]; intros k c n Hn; [destruct n; discriminate|].
        cbn [length List.seq combine]. destruct n as [|n]; cbn [nth_error] in Hn.
        - injection Hn as ->. left. f_equal. lia.
        - right. replace (k + S n)%nat with (S k + n)%nat by lia. apply IH. auto. }
      apply (H _ 0%nat a j Hn). }
    assert (Hsplit : exists l1 l2, edge_drops G = l1 ++ drops_of_slot G j a (Z.to_nat i) c ++ l2).
    { apply in_split in Hk. destruct Hk as (k1 & k2 & Hk). apply in_split in Hj. destruct Hj as (j1 & j2 & Hj).
      unfold edge_drops. rewrite Hj, Hk. rewrite flat_map_app. cbn [flat_map fst snd].
      rewrite flat_map_app. cbn [flat_map fst snd]. rewrite <- !app_assoc. rewrite (app_assoc (flat_map _ j1)).
      eexists _, _. reflexivity. }
    destruct Hsplit as (l1 & l2 & Hd). exists l1, (l2 ++ (if nn then node_drops G else [])).
    rewrite Hd. rewrite <- !app_assoc. unfold drops_of_slot.
    split.
    - intros [_ He]. destruct (geo_step G c (ag_fwd (geo_ax G) a)); [reflexivity|congruence].
    - intros He. destruct (geo_step G c (ag_fwd (geo_ax G) a)) eqn:Es; [|reflexivity].
      exfalso. apply He. split; [auto|congruence].
  Qed.

  Lemma c34_gap : forall (g : graph) nf ef nn c, Built m s G g nf ef -> In c (geo_nodes G) ->
    exists j k l1 l2, drop_graph m nn true g = Ok (l1 ++ [DropEdge j k false] ++ l2).
  Proof using STO.
    intros g nf ef nn c HB Hc. destruct (some_gap _ _ _ _ _ STO Hc) as (c' & a & Hc' & Ha).
    assert (Hi : exists i, to_index m g c' = Ok i).
    { refine_store m STO. pose proof (built_rep RF _ _ _ HB) as [Hs _].
      apply (node_cell RF) in Hc'. destruct Hc' as (x & y & Hx & Hy & ->). unfold to_index. rewrite Hs.
      rewrite (to_index_ok RF) by auto. eexists. reflexivity. }
    destruct Hi as (i & Hi). destruct (c34_edge g nf ef nn c' a i HB Hc' Hi) as (l1 & l2 & _ & H).
    do 4 eexists. exact (H Ha).
  Qed.

  Lemma c35_clone : forall (g : graph) nf ef cn, Built m s G g nf ef -> clone_graph cn true g = Ok g.
  Proof using STO.
    intros g nf ef cn HB. refine_store m STO.
    rewrite (rep_memory RF _ _ _ (built_rep RF _ _ _ HB)). apply clone_memory; auto.
  Qed.

  Lemma c35_empty : forall (g : graph) nf ef cn ce neq eeq sq, Built m s G g nf ef -> geo_nodes G = [] ->
    (forall x, neq x x = true) -> (forall x, eeq x x = true) ->
    clone_graph cn ce g = Ok g /\ eq_graph neq eeq sq g g = Ok sq.
  Proof using STO.
    intros g nf ef cn ce neq eeq sq HB Hn Hne Hee. refine_store m STO.
    assert (Hall : all_edges_exist G) by (intros c a Hc; rewrite Hn in Hc; destruct Hc).
    rewrite (rep_memory RF _ _ _ (built_rep RF _ _ _ HB)).
    split; [apply clone_memory; auto|apply (eq_memory RF); auto].
  Qed.

  Lemma c35_clone_ub : forall (g : graph) nf ef cn c, Built m s G g nf ef ->
    In c (geo_nodes G) -> clone_graph cn false g = Fail FUB.
  Proof using STO.
    intros g nf ef cn c HB Hc. destruct (some_gap _ _ _ _ _ STO Hc) as (c' & a & Hc' & Ha). refine_store m STO.
    rewrite (rep_memory RF _ _ _ (built_rep RF _ _ _ HB)). eapply (clone_memory_gap RF); eauto.
  Qed.

  Lemma c35_eq : forall (g : graph) nf ef neq eeq sq c, Built m s G g nf ef -> In c (geo_nodes G) ->
    (forall x, neq x x = true) -> (forall x, eeq x x = true) -> eq_graph neq eeq sq g g = Fail FUB.
  Proof using STO.
    intros g nf ef neq eeq sq c HB Hc Hn He. destruct (some_gap _ _ _ _ _ STO Hc) as (c' & a & Hc' & Ha).
    refine_store m STO.
    rewrite (rep_memory RF _ _ _ (built_rep RF _ _ _ HB)). eapply (eq_memory RF); eauto.
  Qed.
End Stored.
