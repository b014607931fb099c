(** * FormatProofs: printing a graph (C97). *)

From Verif Require Import Machine Store Axes Shapes Lattice Spec Basics AxisProofs GeoProofs
  ShapeProofs StoreProofs GraphProofs RepProofs Main1 QuirkProofs DropProofs Format More
  MoreProofs.
From Coq Require Import ZifyBool ZifyNat.
Ltac Zify.zify_post_hook ::= Z.div_mod_to_equations.

(** ** The corners are shown *)

Lemma shown_range : forall limit n i, 0 <= limit -> In i (shown limit n) -> 0 <= i < n.
Proof.
  intros limit n i Hl. unfold shown. destruct (n <=? limit) eqn:E.
  - intros H. apply in_zrange in H. lia.
  - rewrite in_app_iff, in_map_iff. intros [H|(j & <- & H)]; apply in_zrange in H; lia.
Qed.
Lemma shown_first : forall limit n, 2 <= limit -> 0 < n -> In 0 (shown limit n).
Proof.
  intros limit n Hl Hn. unfold shown. destruct (n <=? limit) eqn:E.
  - apply in_zrange. lia.
  - apply in_or_app. left. apply in_zrange. lia.
Qed.
Lemma shown_last : forall limit n, 2 <= limit -> 0 < n -> In (n - 1) (shown limit n).
Proof.
  intros limit n Hl Hn. unfold shown. destruct (n <=? limit) eqn:E.
  - apply in_zrange. lia.
  - apply in_or_app. right. apply in_map_iff. exists (limit / 2 - 1). split; [lia|].
    apply in_zrange. lia.
Qed.

Definition some_of (n : Z) (l : list Z) : Prop :=
  (forall i, In i l -> 0 <= i < n) /\ (0 < n -> In 0 l /\ In (n - 1) l).

Lemma some_of_shown : forall (b : bool) n, some_of n (if b then shown 11 n else zrange n).
Proof.
  intros b n. split.
  - intros i H. destruct b; [apply shown_range in H; lia|apply in_zrange in H; lia].
  - intros Hn. destruct b; [split; [apply shown_first|apply shown_last]; lia|].
    split; apply in_zrange; lia.
Qed.

(** ** Loops that read *)

Section Read.
  Context {X T : Type} (fx : X -> list T) (a : Array2 (option X)).

  Definition cell_step (l : list T) (p : Z * Z) : outcome (list T) :=
    match array_get a (fst p) (snd p) with
    | Some x => let! w := read_slot x in Ok (l ++ fx w)
    | None => Fail FPanic
    end.

  Lemma fmt_nested : forall cols rows acc,
    fold_outcome (fun l r =>
      fold_outcome (fun l c =>
        match array_get a r c with
        | Some x => let! w := read_slot x in Ok (l ++ fx w)
        | None => Fail FPanic
        end) cols l) rows acc
    = fold_outcome cell_step (flat_map (fun r => map (fun c => (r, c)) cols) rows) acc.
  Proof.
    intros cols. induction rows as [|r rows IH]; intros acc; cbn [fold_outcome flat_map]; [reflexivity|].
    rewrite fold_outcome_app.
    replace (fold_outcome cell_step (map (fun c => (r, c)) cols) acc) with
      (fold_outcome (fun l c =>
        match array_get a r c with
        | Some x => let! w := read_slot x in Ok (l ++ fx w)
        | None => Fail FPanic
        end) cols acc).
    - destruct (fold_outcome _ cols acc); cbn [bind]; auto.
    - clear. revert acc. induction cols as [|c cols IH]; intros acc; cbn [fold_outcome map]; [reflexivity|].
      unfold cell_step at 1. cbn [fst snd]. destruct (array_get a r c) as [x|]; [|reflexivity].
      destruct (read_slot x); cbn [bind]; auto.
  Qed.

  Lemma read_gap : forall ps acc, (forall p, In p ps -> array_get a (fst p) (snd p) <> None) ->
    (exists p, In p ps /\ array_get a (fst p) (snd p) = Some None) ->
    fold_outcome cell_step ps acc = Fail FUB.
  Proof.
    induction ps as [|p ps IH]; intros acc Hb (q & Hq & Hg); [destruct Hq|]. cbn [fold_outcome].
    unfold cell_step at 1. destruct (array_get a (fst p) (snd p)) as [[x|]|] eqn:E.
    - cbn [read_slot bind]. apply IH; [intros; apply Hb; right; auto|]. exists q. split; auto.
      destruct Hq as [->|Hq]; auto. congruence.
    - reflexivity.
    - exfalso. apply (Hb p); [left; auto|auto].
  Qed.

  Lemma read_all : forall f ps acc,
    (forall p, In p ps -> array_get a (fst p) (snd p) = Some (Some (f p))) ->
    fold_outcome cell_step ps acc = Ok (acc ++ flat_map (fun p => fx (f p)) ps).
  Proof.
    intros f. induction ps as [|p ps IH]; intros acc H; cbn [fold_outcome flat_map].
    - rewrite app_nil_r. reflexivity.
    - unfold cell_step at 1. rewrite (H p) by (left; auto). cbn [read_slot bind].
      rewrite IH by (intros; apply H; right; auto). rewrite <- app_assoc. reflexivity.
  Qed.

  Lemma read_good : forall ps acc,
    (forall p, In p ps -> exists x, array_get a (fst p) (snd p) = Some (Some x)) ->
    exists l, fold_outcome cell_step ps acc = Ok l.
  Proof.
    induction ps as [|p ps IH]; intros acc H; cbn [fold_outcome]; [eauto|].
    unfold cell_step at 1. destruct (H p) as (x & ->); [left; auto|]. cbn [read_slot bind].
    apply IH. intros; apply H; right; auto.
  Qed.

  (** Either some shown slot is unwritten, or all are written. *)
  Lemma read_cases : forall ps acc, (forall p, In p ps -> array_get a (fst p) (snd p) <> None) ->
    fold_outcome cell_step ps acc = Fail FUB \/ exists l, fold_outcome cell_step ps acc = Ok l.
  Proof.
    induction ps as [|p ps IH]; intros acc Hb; cbn [fold_outcome]; [eauto|].
    unfold cell_step at 1 3. destruct (array_get a (fst p) (snd p)) as [[x|]|] eqn:E.
    - cbn [read_slot bind]. apply IH. intros; apply Hb; right; auto.
    - left. reflexivity.
    - exfalso. apply (Hb p); [left; auto|auto].
  Qed.
End Read.

(** ** An unwritten slot in a corner *)

Ltac corner_gap x y a :=
  match goal with |- context [board _ _ ?cell] => exists x, y, (cell x y), a end;
  cbn [sh_horizontal sh_vertical square_shape square_dir_shape diagonal_shape diagonal_dir_shape
    hex_offset_r hex_offset_r_dir hex_offset_r_lew hex_offset_q hex_offset_q_dir hex_offset_q_lew
    offset_shape hex_axial_r hex_axial_r_dir hex_axial_q hex_axial_q_dir hex_axial_r_lew
    hex_axial_r_dir_lew hex_axial_q_lew hex_axial_q_dir_lew axial_shape axial_lew_shape double_shape];
  split; [lia|]; split; [lia|]; split; [lia|]; split; [lia|]; split; [apply board_nth; lia|];
  intros [_ Hne]; apply Hne; clear Hne.

Lemma corner_gap : forall A D (s : Shape Cell A D) G c, Stored s G -> In c (geo_nodes G) ->
  exists x y c' a, (x = 0 \/ x = sh_horizontal s - 1) /\ (y = 0 \/ y = sh_vertical s - 1) /\
    0 <= x < sh_horizontal s /\ 0 <= y < sh_vertical s /\
    nth_error (geo_nodes G) (Z.to_nat (x * sh_vertical s + y)) = Some c' /\ ~ edge_exists G c' a.
Proof.
  intros A D s G c H Hc.
  destruct H as [A D s G H|b w h F|b w h F|b w h F|k b w h F Hf|k b w h F Hf
    |k b w h F Hf|k b w h F Hf|w h F].
  - destruct H;
      cbn [geo_nodes square_geometry rect_geometry offset_r_geometry offset_r_loop_geometry
           axial_r_geometry axial_r_loop_geometry axial_q_geometry axial_q_loop_geometry axial_geometry] in *;
      apply in_board in Hc; destruct Hc as (x & y & Hx & Hy & _).
    + corner_gap (w - 1) 0 SX. no_place.
    + corner_gap (w - 1) 0 DX. no_place.
    + corner_gap (w - 1) 0 GE. no_place.
    + corner_gap (w - 1) 0 DE. no_place.
    + corner_gap 0 (h - 1) ANE. no_place.
    + corner_gap 0 (h - 1) RNE. no_place.
    + corner_gap 0 (h - 1) ANE. no_place.
    + corner_gap 0 (h - 1) ANE. no_place.
    + corner_gap 0 (h - 1) RNE. no_place.
    + corner_gap 0 (h - 1) BN. no_place.
    + corner_gap 0 (h - 1) QN. no_place.
    + corner_gap 0 (h - 1) ANE. no_place.
    + corner_gap 0 (h - 1) RNE. no_place.
    + corner_gap 0 (h - 1) BN. no_place.
    + corner_gap 0 (h - 1) QN. no_place.
  - code_board Hc. corner_gap 0 (h - 1) BN. code_step. rewrite offset_q_step by (auto; lia).
    split_ifs; try lia; reflexivity.
  - code_board Hc. corner_gap 0 (h - 1) QN. code_step. rewrite offset_q_step by (auto; lia).
    split_ifs; try lia; reflexivity.
  - code_board Hc. corner_gap (w - 1) (h - 1) BNE. code_step. rewrite offset_q_lew_step by (auto; lia).
    cbv zeta. split_ifs; try lia; reflexivity.
  - code_board Hc. pose proof (axial_last (co_r b) w h ltac:(lia) ltac:(lia)) as Hl.
    corner_gap 0 (h - 1) ANE. code_step. rewrite co_r_convert.
    unfold axial_cell in *. rewrite axial_r_lew_step by auto. split_ifs; try lia; reflexivity.
  - code_board Hc. pose proof (axial_last (co_r b) w h ltac:(lia) ltac:(lia)) as Hl.
    corner_gap 0 (h - 1) RNE. code_step. rewrite co_r_convert.
    unfold axial_cell in *. rewrite axial_r_lew_step by auto. split_ifs; try lia; reflexivity.
  - code_board Hc. pose proof (axial_last (co_q b) w h ltac:(lia) ltac:(lia)) as Hl.
    corner_gap 0 (h - 1) BN. code_step. rewrite co_q_convert.
    unfold axial_cell in *. rewrite axial_q_lew_step by auto. split_ifs; try lia; reflexivity.
  - code_board Hc. pose proof (axial_last (co_q b) w h ltac:(lia) ltac:(lia)) as Hl.
    corner_gap 0 (h - 1) QN. code_step. rewrite co_q_convert.
    unfold axial_cell in *. rewrite axial_q_lew_step by auto. split_ifs; try lia; reflexivity.
  - code_board Hc. corner_gap (w - 1) 0 AE. code_step. unfold double_cell.
    rewrite double_step by (auto; lia). split_ifs; try lia; reflexivity.
Qed.

Section R.
  Context {A D N E : Type} {m : mode} {s : Shape Cell A D} {G : Geometry A D}
    {cell : Z -> Z -> Cell} (RF : Refines m s G cell).
  Notation w := (sh_horizontal s).
  Notation h := (sh_vertical s).

  Definition table {X} (f : Cell -> X) : Array2 X := mkArray2 w h (map f (geo_nodes G)).

  Lemma table_get : forall X (f : Cell -> X) x y, 0 <= x < w -> 0 <= y < h ->
    array_get (table f) x y = Some (f (cell x y)).
  Proof using RF.
    intros X f x y Hx Hy. unfold array_get, in_bounds, flat_index, table. cbn [nrows ncols cells].
    replace (_ && _) with true by lia. rewrite nth_error_map, (rf_nodes _ _ _ _ RF).
    rewrite board_nth by auto. reflexivity.
  Qed.

  Definition places (alternate : bool) : list (Z * Z) :=
    let many := negb alternate && (500 <=? Z.of_nat (length (geo_nodes G))) in
    flat_map (fun r => map (fun c => (r, c)) (if many then shown 11 h else zrange h))
      (if many then shown 11 w else zrange w).

  Lemma places_in : forall alternate p, In p (places alternate) -> 0 <= fst p < w /\ 0 <= snd p < h.
  Proof.
    intros alternate p H. unfold places in H. apply in_flat_map in H. destruct H as (r & Hr & H).
    apply in_map_iff in H. destruct H as (c & <- & Hc). cbn [fst snd].
    split; [eapply (proj1 (some_of_shown _ w)); exact Hr|eapply (proj1 (some_of_shown _ h)); exact Hc].
  Qed.

  Lemma places_corner : forall alternate x y, 0 <= x < w -> 0 <= y < h ->
    x = 0 \/ x = w - 1 -> y = 0 \/ y = h - 1 -> In (x, y) (places alternate).
  Proof.
    intros alternate x y Hx Hy Cx Cy. unfold places. apply in_flat_map. exists x. split.
    - destruct (proj2 (some_of_shown (negb alternate && (500 <=? Z.of_nat (length (geo_nodes G)))) w)
        ltac:(lia)) as [H1 H2]. destruct Cx as [->| ->]; auto.
    - apply in_map. destruct (proj2 (some_of_shown (negb alternate && (500 <=? Z.of_nat (length (geo_nodes G)))) h)
        ltac:(lia)) as [H1 H2]. destruct Cy as [->| ->]; auto.
  Qed.

  Lemma fmt_table : forall X T alternate (fx : X -> list T) (f : Cell -> option X),
    fmt_array alternate fx (table f)
    = fold_outcome (cell_step fx (table f)) (places alternate) [].
  Proof.
    intros X T alternate fx f. unfold fmt_array, places.
    replace (length (cells (table f))) with (length (geo_nodes G)) by (symmetry; apply map_length).
    apply fmt_nested.
  Qed.

  Lemma fmt_table_ok : forall X T alternate (fx : X -> list T) (f : Cell -> X),
    fmt_array alternate fx (table (fun c => Some (f c)))
    = Ok (flat_map (fun p => fx (f (cell (fst p) (snd p)))) (places alternate)).
  Proof using RF.
    intros X T alternate fx f. rewrite fmt_table.
    rewrite (read_all fx _ (fun p => f (cell (fst p) (snd p)))); [reflexivity|].
    intros p Hp. apply places_in in Hp. rewrite table_get by tauto. reflexivity.
  Qed.

  Lemma fmt_table_bounds : forall X alternate (f : Cell -> option X) p, In p (places alternate) ->
    array_get (table f) (fst p) (snd p) <> None.
  Proof using RF.
    intros X alternate f p Hp. apply places_in in Hp. rewrite table_get by tauto. discriminate.
  Qed.

  Lemma places_all : forall alternate, alternate = true \/ Z.of_nat (length (geo_nodes G)) < 500 ->
    map (fun p => cell (fst p) (snd p)) (places alternate) = geo_nodes G.
  Proof using RF.
    intros alternate H. unfold places.
    replace (negb alternate && (500 <=? Z.of_nat (length (geo_nodes G)))) with false
      by (destruct H as [->|H]; [reflexivity|lia]).
    rewrite (rf_nodes _ _ _ _ RF). unfold board. generalize (zrange w) as xs.
    induction xs as [|x xs IH]; cbn [flat_map]; [reflexivity|]. rewrite map_app, IH. f_equal.
    rewrite map_map. reflexivity.
  Qed.

  Lemma fmt_axes : forall T alternate (fe : E -> list T) ef a axes acc, In a axes ->
    (exists p, In p (places alternate) /\ ~ edge_exists G (cell (fst p) (snd p)) a) ->
    fold_outcome (fun l a => let! x := fmt_array alternate fe a in Ok (l ++ x))
      (map (edge_array (s := s) (G := G) ef) axes) acc = Fail FUB.
  Proof using RF.
    intros T alternate fe ef a. induction axes as [|b axes IH]; intros acc Hin Hg; [destruct Hin|].
    cbn [map fold_outcome]. change (edge_array (s := s) (G := G) ef b) with (table (fun c => opt_edge (G := G) ef c b)).
    rewrite fmt_table.
    destruct Hin as [->|Hin].
    - rewrite read_gap; [reflexivity|apply fmt_table_bounds|].
      destruct Hg as (p & Hp & Hg). exists p. split; auto. pose proof (places_in _ _ Hp) as [Hx Hy].
      rewrite table_get by auto. unfold opt_edge.
      destruct (geo_step G (cell (fst p) (snd p)) (ag_fwd (geo_ax G) a)) eqn:Es; [|reflexivity].
      exfalso. apply Hg. split; [|congruence]. rewrite (rf_nodes _ _ _ _ RF). apply in_board. eauto.
    - destruct (read_cases fe (table (fun c => opt_edge (G := G) ef c b)) (places alternate) []
        (fmt_table_bounds _ _ _)) as [->|(l & ->)]; [reflexivity|]. cbn [bind]. apply IH; auto.
  Qed.
End R.

Section Stored.
  Context {A D N E : Type} {m : mode} {s : Shape Cell A D} {G : Geometry A D}
    (STO : Stored s G).
  Notation graph := (LatticeGraph Cell A D N E).

  Lemma c97 : forall (g : graph) nf ef T alternate (fn : N -> list T) (fe : E -> list T) fs c,
    Built m s G g nf ef -> In c (geo_nodes G) -> fmt_graph alternate fn fe fs g = Fail FUB.
  Proof using STO.
    intros g nf ef T alternate fn fe fs c HB Hc.
    destruct (corner_gap _ _ _ _ _ STO Hc) as (x & y & c' & a & Cx & Cy & Hx & Hy & Hn & Ha).
    refine_store m STO. rewrite (rep_memory RF _ _ _ (RepProofs.built_rep RF _ _ _ HB)).
    unfold fmt_graph, memory. cbn [g_nodes g_edges].
    change (mkArray2 _ _ (map (fun c => Some (nf c)) (geo_nodes G)))
      with (table (s := s) (G := G) (fun c => Some (nf c))).
    rewrite (fmt_table_ok RF). cbn [bind].
    rewrite (fmt_axes RF) with (a := a); [reflexivity|apply (axis_in RF)|].
    exists (x, y). split; [apply places_corner; auto|]. cbn [fst snd].
    rewrite (rf_nodes _ _ _ _ RF), board_nth in Hn by auto. congruence.
  Qed.

  (** With edges that occupy no memory. *)
  Lemma c97_zero_sized : forall (g : graph) nf ef T alternate (fn : N -> list T) (fe : E -> list T) fs x,
    Built m s G g nf ef -> (forall a b : E, a = b) ->
    exists cs, (forall c, In c cs -> In c (geo_nodes G)) /\
      (alternate = true \/ Z.of_nat (length (geo_nodes G)) < 500 -> cs = geo_nodes G) /\
      fmt_graph alternate fn fe fs (zero_sized x g)
        = Ok (flat_map (fun c => fn (nf c)) cs ++
              flat_map (fun a => flat_map (fun c => fe x) cs) (ag_axes (geo_ax G)) ++ fs).
  Proof using STO.
    intros g nf ef T alternate fn fe fs x HB HU. refine_store m STO.
    rewrite (rep_memory RF _ _ _ (RepProofs.built_rep RF _ _ _ HB)).
    rewrite !zero_sized_memory by auto.
    exists (map (fun p => cell (fst p) (snd p)) (places (s := s) (G := G) alternate)). split; [|split].
    - intros c Hc. apply in_map_iff in Hc. destruct Hc as (p & <- & Hp). apply places_in in Hp.
      rewrite (rf_nodes _ _ _ _ RF). apply in_board. exists (fst p), (snd p). tauto.
    - apply (places_all RF).
    - unfold fmt_graph, full_memory. cbn [g_nodes g_edges].
      change (mkArray2 _ _ (map (fun c => Some (nf c)) (geo_nodes G)))
        with (table (s := s) (G := G) (fun c => Some (nf c))).
      rewrite (fmt_table_ok RF). cbn [bind].
      assert (Hf : forall (axes : list A) acc,
        fold_outcome (fun l a => let! x := fmt_array alternate fe a in Ok (l ++ x))
          (map (fun a => table (s := s) (G := G) (fun c => Some x)) axes) acc
        = Ok (acc ++ flat_map (fun a => flat_map (fun c => fe x)
            (map (fun p => cell (fst p) (snd p)) (places (s := s) (G := G) alternate))) axes)).
      { induction axes as [|a axes IH]; intros acc; cbn [map fold_outcome flat_map].
        - rewrite app_nil_r. reflexivity.
        - rewrite (fmt_table_ok RF). cbn [bind]. rewrite IH, <- app_assoc. do 3 f_equal.
          rewrite !flat_map_concat_map, map_map. reflexivity. }
      etransitivity; [|].
      { apply f_equal2 with (f := fun a b => bind a b); [apply Hf|reflexivity]. }
      cbn [bind app]. do 2 f_equal. rewrite !flat_map_concat_map, map_map. reflexivity.
  Qed.
End Stored.
