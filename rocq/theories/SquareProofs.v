(** * SquareProofs: construction, weights, nodes and neighbours of [SquareGraph]. *)

From Verif Require Import Machine Store Spec SquareGraph SpecSquare Basics GeoProofs RepProofs.
From Coq Require Import ZifyBool ZifyNat.
Ltac Zify.zify_post_hook ::= Z.div_mod_to_equations.

(** ** Filling a vector *)

Fixpoint run {St P X} (f : St -> P -> X * St) (l : list P) (st : St) : list X :=
  match l with
  | [] => []
  | c :: l => fst (f st c) :: run f l (snd (f st c))
  end.
Definition after {St P X} (f : St -> P -> X * St) (l : list P) (st : St) : St :=
  fold_left (fun st c => snd (f st c)) l st.

Lemma run_length : forall St P X (f : St -> P -> X * St) l st, length (run f l st) = length l.
Proof. induction l; intros; simpl; auto. Qed.

Lemma run_app : forall St P X (f : St -> P -> X * St) l1 l2 st,
  run f (l1 ++ l2) st = run f l1 st ++ run f l2 (after f l1 st).
Proof. induction l1; intros; simpl; auto. f_equal. apply IHl1. Qed.

Lemma after_app : forall St P X (f : St -> P -> X * St) l1 l2 st,
  after f (l1 ++ l2) st = after f l2 (after f l1 st).
Proof. intros. unfold after. apply fold_left_app. Qed.

Lemma run_nth : forall St P X (f : St -> P -> X * St) l st i c, nth_error l i = Some c ->
  nth_error (run f l st) i = Some (fst (f (after f (firstn i l) st) c)).
Proof.
  induction l as [|c0 l IH]; intros st [|i] c H; simpl in *; try discriminate.
  - congruence.
  - apply IH; auto.
Qed.

Section Fill.
  Context {St X : Type} (f : St -> Z -> Z -> X * St).
  Let fp (st : St) (p : Z * Z) : X * St := f st (fst p) (snd p).

  Lemma fill_row : forall hi l acc st,
    fold_left (fun acc vi => let '(l, st) := acc in let '(x, st) := f st hi vi in (l ++ [x], st))
      l (acc, st)
    = (acc ++ run fp (map (fun y => (hi, y)) l) st, after fp (map (fun y => (hi, y)) l) st).
  Proof.
    intros hi. induction l as [|y l IH]; intros acc st.
    - simpl. rewrite app_nil_r. reflexivity.
    - cbn [fold_left map run]. unfold after. cbn [fold_left]. fold (after fp).
      change (f st hi y) with (fp st (hi, y)). destruct (fp st (hi, y)) as [x st'].
      rewrite IH. cbn [fst snd]. rewrite <- app_assoc. reflexivity.
  Qed.

  Lemma fill_run : forall h v st,
    fill f h v st = (run fp (board h v (fun x y => (x, y))) st,
                     after fp (board h v (fun x y => (x, y))) st).
  Proof.
    intros h v st. unfold fill, board.
    assert (H : forall l acc st,
      fold_left (fun acc hi => fold_left (fun acc vi =>
        let '(l, st) := acc in let '(x, st) := f st hi vi in (l ++ [x], st)) (zrange v) acc)
        l (acc, st)
      = (acc ++ run fp (flat_map (fun x => map (fun y => (x, y)) (zrange v)) l) st,
         after fp (flat_map (fun x => map (fun y => (x, y)) (zrange v)) l) st)).
    { clear. induction l as [|x l IH]; intros acc st.
      - simpl. rewrite app_nil_r. reflexivity.
      - cbn [fold_left flat_map]. rewrite fill_row, IH, run_app, after_app, app_assoc.
        reflexivity. }
    rewrite H. reflexivity.
  Qed.
End Fill.

Lemma IMAX1_pow : IMAX1 = 2 ^ 63. Proof. reflexivity. Qed.
Lemma USIZE_pow : USIZE = 2 ^ 64. Proof. reflexivity. Qed.

Lemma loops_h_eq : forall S, LOOP_HORIZONTAL S = loops_h S.
Proof. destruct S; reflexivity. Qed.
Lemma loops_v_eq : forall S, LOOP_VERTICAL S = loops_v S.
Proof. destruct S; reflexivity. Qed.

(** ** Construction *)

Section Build.
  Context {N E : Type} {ix : IxType} {S : LoopShape}.
  Notation graph := (SquareGraph N E ix S).

  (** What the arrays of a graph hold. *)
  Record SqRep (h v : Z) (g : graph) (nf : NodeIndex -> N) (ef : EdgeIndex -> E) : Prop := {
    sq_nodes_wf : array_wf (sg_nodes g) h v;
    sq_h_wf : array_wf (sg_horizontal g) (edge_columns S h) v;
    sq_v_wf : array_wf (sg_vertical g) h (edge_rows S v);
    sq_nodes_get : forall x y, 0 <= x < h -> 0 <= y < v ->
      array_get (sg_nodes g) x y = Some (nf (x, y));
    sq_h_get : forall x y, 0 <= x < edge_columns S h -> 0 <= y < v ->
      array_get (sg_horizontal g) x y = Some (ef ((x, y), Horizontal));
    sq_v_get : forall x y, 0 <= x < h -> 0 <= y < edge_rows S v ->
      array_get (sg_vertical g) x y = Some (ef ((x, y), Vertical))
  }.

  Lemma array_from_run : forall St X (f : St -> Z * Z -> X * St) h v st, 0 <= h -> 0 <= v ->
    Z.max 1 h * Z.max 1 v < 2 ^ 63 ->
    exists a, array_from_vec h v (run f (board h v (fun x y => (x, y))) st) = Ok a /\
      array_wf a h v /\
      forall x y, 0 <= x < h -> 0 <= y < v -> array_get a x y
        = Some (fst (f (after f (firstn (Z.to_nat (x * v + y)) (board h v (fun x y => (x, y)))) st) (x, y))).
  Proof.
    intros St X f h v st Hh Hv Hs. unfold array_from_vec, alloc_ok.
    assert (L : Z.of_nat (length (run f (board h v (fun x y => (x, y))) st)) = h * v).
    { rewrite run_length, board_length by auto. nia. }
    rewrite L, Z.eqb_refl, IMAX1_pow.
    replace (Z.max 1 h * Z.max 1 v <? 2 ^ 63) with true by lia. cbn [andb].
    eexists. split; [reflexivity|]. split; [repeat split; auto|].
    intros x y Hx Hy.
    rewrite (array_get_ok _ _ h v x y) by (auto; repeat split; auto). cbn [cells].
    apply run_nth. apply board_nth; auto.
  Qed.

  Lemma array_from_big : forall X h v (l : list X), 2 ^ 63 <= Z.max 1 h * Z.max 1 v ->
    array_from_vec h v l = Fail FPanic.
  Proof.
    intros X h v l H. unfold array_from_vec, alloc_ok. rewrite IMAX1_pow.
    replace (Z.max 1 h * Z.max 1 v <? 2 ^ 63) with false by lia. reflexivity.
  Qed.

  Lemma usize_mul_any : forall m x y,
    usize_mul m x y = Fail FPanic \/ exists z, usize_mul m x y = Ok z.
  Proof.
    intros. unfold usize_mul, wrap_usize. destruct ((0 <=? x * y) && (x * y <? USIZE)); eauto.
    destruct m; eauto.
  Qed.

  Section Closures.
    Context {St : Type} (fn : St -> NodeIndex -> N * St) (fe : St -> NodeIndex -> SqAxis -> E * St).
    Let calls := state_after (A := SqAxis) fn fe.

    Lemma after_nodes : forall l st,
      after (fun st p => node_fun fn st (fst p) (snd p)) l st = calls (map (fun n => CallNode n) l) st.
    Proof.
      induction l as [|c l IH]; intros st; [reflexivity|].
      unfold calls, state_after, after in *. cbn [map fold_left]. rewrite IH.
      unfold call_state at 3, node_fun. destruct c. reflexivity.
    Qed.

    Lemma after_edges : forall a l st,
      after (fun st p => edge_fun fe st (fst p) (snd p) a) l st
      = calls (map (fun n => CallEdge n a) l) st.
    Proof.
      intros a. induction l as [|c l IH]; intros st; [reflexivity|].
      unfold calls, state_after, after in *. cbn [map fold_left]. rewrite IH.
      unfold call_state at 3, edge_fun. destruct c. reflexivity.
    Qed.

    Lemma state_after_app : forall l1 l2 st, calls (l1 ++ l2) st = calls l2 (calls l1 st).
    Proof. intros. unfold calls, state_after. apply fold_left_app. Qed.

    Definition node_val (h v : Z) (st : St) (n : NodeIndex) : N :=
      fst (fn (calls (map (fun n => CallNode n)
        (firstn (Z.to_nat (fst n * v + snd n)) (sq_nodes h v))) st) n).
    Definition edge_val (h v : Z) (st : St) (e : EdgeIndex) : E :=
      match snd e with
      | Horizontal =>
          fst (fe (calls (map (fun n => CallEdge n Horizontal)
            (firstn (Z.to_nat (fst (fst e) * v + snd (fst e))) (sq_nodes (edge_columns S h) v)))
            (calls (map (fun n => CallNode n) (sq_nodes h v)) st)) (fst e) Horizontal)
      | Vertical =>
          fst (fe (calls (map (fun n => CallEdge n Vertical)
            (firstn (Z.to_nat (fst (fst e) * edge_rows S v + snd (fst e))) (sq_nodes h (edge_rows S v))))
            (calls (map (fun n => CallEdge n Horizontal) (sq_nodes (edge_columns S h) v))
              (calls (map (fun n => CallNode n) (sq_nodes h v)) st))) (fst e) Vertical)
      end.

    Lemma new_with_rep : forall m h v st, sq_size S h v ->
      exists g : graph, sg_new_with m h v (node_fun fn) (edge_fun fe) st
        = Ok (g, calls (sq_calls S h v) st) /\
      SqRep h v g (node_val h v st) (edge_val h v st).
    Proof.
      intros m h v st (Hh & Hv & Hs). unfold sg_new_with.
      assert (Hv0 : 0 <= v) by (destruct (loops_v S); lia).
      replace (0 <? h) with true by lia. cbn [negb].
      rewrite (usize_mul_ok m h v) by (rewrite USIZE_pow; nia). cbn [bind].
      rewrite fill_run. rewrite after_nodes.
      destruct (array_from_run St N (fun st p => node_fun fn st (fst p) (snd p)) h v st)
        as (na & -> & Wn & Gn); [lia|auto|nia|]. cbn [bind].
      assert (Hmh : (if LOOP_HORIZONTAL S then Ok h else usize_sub m h 1) = Ok (edge_columns S h)).
      { rewrite loops_h_eq. unfold edge_columns. destruct (loops_h S); auto.
        apply usize_sub_ok. rewrite USIZE_pow. nia. }
      rewrite Hmh. cbn [bind].
      assert (Hc : 0 <= edge_columns S h <= h) by (unfold edge_columns; destruct (loops_h S); lia).
      assert (Hr : 0 <= edge_rows S v <= v) by (unfold edge_rows; destruct (loops_v S); lia).
      rewrite (usize_mul_ok m (edge_columns S h) v) by (rewrite USIZE_pow; nia). cbn [bind].
      rewrite fill_run. rewrite (after_edges Horizontal).
      destruct (array_from_run St E (fun st p => edge_fun fe st (fst p) (snd p) Horizontal)
        (edge_columns S h) v (calls (map (fun n => CallNode n) (sq_nodes h v)) st))
        as (ha & Eh & Wh & Gh); [lia|auto|nia|]. unfold sq_nodes in Eh at 1. rewrite Eh. cbn [bind].
      assert (Hmv : (if LOOP_VERTICAL S then Ok v else usize_sub m v 1) = Ok (edge_rows S v)).
      { rewrite loops_v_eq. unfold edge_rows. destruct (loops_v S); auto.
        apply usize_sub_ok. rewrite USIZE_pow. nia. }
      rewrite Hmv. cbn [bind].
      rewrite (usize_mul_ok m h (edge_rows S v)) by (rewrite USIZE_pow; nia). cbn [bind].
      rewrite fill_run. rewrite (after_edges Vertical).
      destruct (array_from_run St E (fun st p => edge_fun fe st (fst p) (snd p) Vertical)
        h (edge_rows S v) (calls (map (fun n => CallEdge n Horizontal) (sq_nodes (edge_columns S h) v))
          (calls (map (fun n => CallNode n) (sq_nodes h v)) st)))
        as (va & Ev & Wv & Gv); [lia|lia|nia|]. unfold sq_nodes in Ev at 1 2. rewrite Ev. cbn [bind].
      assert (Hraw : new_raw m na ha va = Ok (mkSquare (ix := ix) (S := S) na ha va)).
      { unfold new_raw. destruct m; auto. unfold check_gen.
        destruct Wn as (N1 & N2 & _). destruct Wh as (H1 & H2 & _). destruct Wv as (V1 & V2 & _).
        cbn [sg_nodes sg_horizontal sg_vertical]. rewrite N1, N2, H1, H2, V1, V2.
        rewrite loops_h_eq, loops_v_eq. unfold edge_columns, edge_rows in *.
        assert (Hlt : h < 2 ^ 63 /\ v < 2 ^ 63) by nia.
        rewrite (usize_add_ok Debug) by (rewrite USIZE_pow; destruct (loops_h S); lia). cbn [bind].
        match goal with |- context [if ?b then _ else _] => replace b with true end.
        2: { destruct (loops_h S); lia. }
        rewrite (usize_add_ok Debug) by (rewrite USIZE_pow; destruct (loops_v S); lia). cbn [bind].
        match goal with |- context [debug_assert Debug ?b] => replace b with true end.
        2: { destruct (loops_v S); lia. }
        reflexivity. }
      rewrite Hraw. cbn [bind]. eexists. split.
      - unfold sq_calls. rewrite !state_after_app. reflexivity.
      - constructor; cbn [sg_nodes sg_horizontal sg_vertical]; auto.
        + intros x y Hx Hy. rewrite Gn by auto. unfold node_val. rewrite after_nodes. reflexivity.
        + intros x y Hx Hy. rewrite Gh by auto. unfold edge_val. rewrite (after_edges Horizontal). reflexivity.
        + intros x y Hx Hy. rewrite Gv by auto. unfold edge_val. rewrite (after_edges Vertical). reflexivity.
    Qed.

    (** Every other size is refused. *)
    Lemma new_with_panics : forall m h v st, is_usize h -> is_usize v -> ~ sq_size S h v ->
      sg_new_with (ix := ix) (S := S) m h v (node_fun fn) (edge_fun fe) st = Fail FPanic.
    Proof.
      intros m h v st Hh Hv Hs. unfold is_usize in *. rewrite USIZE_pow in *. unfold sg_new_with.
      destruct (Z.ltb_spec 0 h) as [Hpos|Hz]; cbn [negb]; [|reflexivity].
      destruct (usize_mul_any m h v) as [->|[z ->]]; cbn [bind]; [reflexivity|].
      rewrite fill_run. unfold sq_size in Hs.
      destruct (Z_lt_le_dec (h * Z.max 1 v) (2 ^ 63)) as [Hlt|Hge].
      2: { rewrite array_from_big; [reflexivity|nia]. }
      assert (Hv' : loops_v S = false /\ v = 0).
      { destruct (loops_v S); [exfalso; apply Hs; lia|]. split; auto. lia. }
      destruct Hv' as [HS ->]. rewrite loops_v_eq, HS.
      destruct (array_from_run St N (fun st p => node_fun fn st (fst p) (snd p)) h 0 st)
        as (na & -> & _); [lia|lia|nia|]. cbn [bind].
      set (mh := if LOOP_HORIZONTAL S then Ok h else usize_sub m h 1).
      assert (Hmh : exists k, mh = Ok k /\ 0 <= k <= h).
      { unfold mh. destruct (LOOP_HORIZONTAL S).
        - exists h. split; auto. lia.
        - exists (h - 1). split; [apply usize_sub_ok; rewrite USIZE_pow; lia|lia]. }
      destruct Hmh as (k & -> & Hk). cbn [bind].
      destruct (usize_mul_any m k 0) as [->|[z' ->]]; cbn [bind]; [reflexivity|].
      rewrite fill_run.
      match goal with |- context [array_from_vec k 0 ?l] => set (l0 := l) end.
      destruct (array_from_vec k 0 l0) as [ha|fl] eqn:Eh; cbn [bind].
      2: { unfold array_from_vec in Eh. destruct (alloc_ok k 0 && _); congruence. }
      assert (E0 : usize_sub m 0 1 = match m with Debug => Fail FPanic | Release => Ok (2 ^ 64 - 1) end)
        by (destruct m; reflexivity).
      rewrite E0. destruct m; [reflexivity|]. cbn [bind].
      destruct (usize_mul_any Release h (2 ^ 64 - 1)) as [->|[z'' ->]]; cbn [bind]; [reflexivity|].
      rewrite fill_run. rewrite array_from_big; [reflexivity|nia].
    Qed.
  End Closures.

  Lemma rep_ext : forall h v g nf ef nf' ef', SqRep h v g nf ef ->
    (forall n, on_board h v n -> nf n = nf' n) ->
    (forall e, on_board h v (fst e) -> ef e = ef' e) -> SqRep h v g nf' ef'.
  Proof.
    intros h v g nf ef nf' ef' [H1 H2 H3 H4 H5 H6] Hn He. constructor; auto.
    - intros x y Hx Hy. rewrite <- Hn by (split; auto). auto.
    - intros x y Hx Hy. rewrite <- He; auto. split; cbn; auto.
      unfold edge_columns in Hx. destruct (loops_h S); lia.
    - intros x y Hx Hy. rewrite <- He; auto. split; cbn; auto.
      unfold edge_rows in Hy. destruct (loops_v S); lia.
  Qed.

  Lemma sq_neighbour_fwd_h : forall h v x y, 0 <= x < h -> 0 <= y < v ->
    sq_neighbour S h v (x, y) (Foward Horizontal)
    = if x + 1 <? h then Some (x + 1, y) else if loops_h S then Some (0, y) else None.
  Proof.
    intros h v x y Hx Hy. unfold sq_neighbour, wrapped. cbn [fst snd sq_dir_vec sq_axis_vec].
    replace ((0 <=? y + 0) && (y + 0 <? v)) with true by lia.
    destruct (Z.ltb_spec (x + 1) h).
    - replace ((0 <=? x + 1) && true) with true by lia. do 2 f_equal. lia.
    - replace ((0 <=? x + 1) && false) with false by lia. destruct (loops_h S); auto.
      assert (x + 1 = h) as -> by lia. rewrite Z.mod_same by lia. do 2 f_equal. lia.
  Qed.

  Lemma sq_neighbour_fwd_v : forall h v x y, 0 <= x < h -> 0 <= y < v ->
    sq_neighbour S h v (x, y) (Foward Vertical)
    = if y + 1 <? v then Some (x, y + 1) else if loops_v S then Some (x, 0) else None.
  Proof.
    intros h v x y Hx Hy. unfold sq_neighbour, wrapped. cbn [fst snd sq_dir_vec sq_axis_vec].
    replace ((0 <=? x + 0) && (x + 0 <? h)) with true by lia.
    destruct (Z.ltb_spec (y + 1) v).
    - replace ((0 <=? y + 1) && true) with true by lia. do 2 f_equal. lia.
    - replace ((0 <=? y + 1) && false) with false by lia. destruct (loops_v S); auto.
      assert (y + 1 = v) as -> by lia. rewrite Z.mod_same by lia. do 2 f_equal. lia.
  Qed.

  Lemma sq_neighbour_bwd_h : forall h v x y, 0 <= x < h -> 0 <= y < v ->
    sq_neighbour S h v (x, y) (Backward Horizontal)
    = if x =? 0 then if loops_h S then Some (h - 1, y) else None else Some (x - 1, y).
  Proof.
    intros h v x y Hx Hy. unfold sq_neighbour, wrapped. cbn [fst snd sq_dir_vec sq_axis_vec vneg].
    replace ((0 <=? y + - 0) && (y + - 0 <? v)) with true by lia.
    destruct (Z.eqb_spec x 0) as [->|].
    - replace ((0 <=? 0 + -(1)) && (0 + -(1) <? h)) with false by lia. destruct (loops_h S); auto.
      replace ((0 + -(1)) mod h) with (h - 1). { do 2 f_equal. lia. }
      apply Z.mod_unique with (q := -1); lia.
    - replace ((0 <=? x + -(1)) && (x + -(1) <? h)) with true by lia. do 2 f_equal; lia.
  Qed.

  Lemma sq_neighbour_bwd_v : forall h v x y, 0 <= x < h -> 0 <= y < v ->
    sq_neighbour S h v (x, y) (Backward Vertical)
    = if y =? 0 then if loops_v S then Some (x, v - 1) else None else Some (x, y - 1).
  Proof.
    intros h v x y Hx Hy. unfold sq_neighbour, wrapped. cbn [fst snd sq_dir_vec sq_axis_vec vneg].
    replace ((0 <=? x + - 0) && (x + - 0 <? h)) with true by lia.
    destruct (Z.eqb_spec y 0) as [->|].
    - replace ((0 <=? 0 + -(1)) && (0 + -(1) <? v)) with false by lia. destruct (loops_v S); auto.
      replace ((0 + -(1)) mod v) with (v - 1). { do 2 f_equal. lia. }
      apply Z.mod_unique with (q := -1); lia.
    - replace ((0 <=? y + -(1)) && (y + -(1) <? v)) with true by lia. do 2 f_equal; lia.
  Qed.

  Lemma neighbour_on_board : forall h v n d t, on_board h v n ->
    sq_neighbour S h v n d = Some t -> on_board h v t.
  Proof.
    intros h v [x y] d t [Hx Hy] H. cbn [fst snd] in *.
    destruct d as [[]|[]];
      [rewrite sq_neighbour_fwd_h in H|rewrite sq_neighbour_fwd_v in H|
       rewrite sq_neighbour_bwd_h in H|rewrite sq_neighbour_bwd_v in H]; auto.
    - destruct (Z.ltb_spec (x + 1) h); [|destruct (loops_h S); [|discriminate]];
        injection H as <-; split; cbn; lia.
    - destruct (Z.ltb_spec (y + 1) v); [|destruct (loops_v S); [|discriminate]];
        injection H as <-; split; cbn; lia.
    - destruct (Z.eqb_spec x 0); [destruct (loops_h S); [|discriminate]|];
        injection H as <-; split; cbn; lia.
    - destruct (Z.eqb_spec y 0); [destruct (loops_v S); [|discriminate]|];
        injection H as <-; split; cbn; lia.
  Qed.

  (** An edge exists where its array has a slot. *)
  Lemma edge_exists_h : forall h v x y, sq_edge_exists S h v ((x, y), Horizontal) <->
    0 <= x < edge_columns S h /\ 0 <= y < v.
  Proof.
    intros h v x y. unfold sq_edge_exists, on_board, edge_columns. cbn [fst snd]. split.
    - intros [[Hx Hy] H]. rewrite sq_neighbour_fwd_h in H by auto. split; auto.
      destruct (loops_h S); auto. destruct (Z.ltb_spec (x + 1) h); [lia|congruence].
    - intros [Hx Hy]. assert (Hx' : 0 <= x < h) by (destruct (loops_h S); lia). split; [lia|].
      rewrite sq_neighbour_fwd_h by auto. destruct (loops_h S); destruct (Z.ltb_spec (x + 1) h);
        try discriminate. lia.
  Qed.

  Lemma edge_exists_v : forall h v x y, sq_edge_exists S h v ((x, y), Vertical) <->
    0 <= x < h /\ 0 <= y < edge_rows S v.
  Proof.
    intros h v x y. unfold sq_edge_exists, on_board, edge_rows. cbn [fst snd]. split.
    - intros [[Hx Hy] H]. rewrite sq_neighbour_fwd_v in H by auto. split; auto.
      destruct (loops_v S); auto. destruct (Z.ltb_spec (y + 1) v); [lia|congruence].
    - intros [Hx Hy]. assert (Hy' : 0 <= y < v) by (destruct (loops_v S); lia). split; [lia|].
      rewrite sq_neighbour_fwd_v by auto. destruct (loops_v S); destruct (Z.ltb_spec (y + 1) v);
        try discriminate. lia.
  Qed.

  (** ** Weights *)

  Lemma array_get_out : forall X (a : Array2 X) h v x y, array_wf a h v ->
    ~ (0 <= x < h /\ 0 <= y < v) -> array_get a x y = None.
  Proof.
    intros X a h v x y (H1 & H2 & _) H. unfold array_get, in_bounds. rewrite H1, H2.
    replace ((0 <=? x) && (x <? h) && (0 <=? y) && (y <? v)) with false by lia. reflexivity.
  Qed.

  Lemma rep_node : forall h v g nf ef n, SqRep h v g nf ef -> on_board h v n ->
    sg_node_weight g n = Some (nf n).
  Proof.
    intros h v g nf ef [x y] R [Hx Hy]. cbn [fst snd] in *. apply (sq_nodes_get _ _ _ _ _ R); auto.
  Qed.
  Lemma rep_node_out : forall h v g nf ef n, SqRep h v g nf ef -> ~ on_board h v n ->
    sg_node_weight g n = None.
  Proof.
    intros h v g nf ef [x y] R H. eapply array_get_out; [apply (sq_nodes_wf _ _ _ _ _ R)|auto].
  Qed.
  Lemma rep_edge : forall h v g nf ef e, SqRep h v g nf ef -> sq_edge_exists S h v e ->
    sg_edge_weight g e = Some (ef e).
  Proof.
    intros h v g nf ef [[x y] []] R H.
    - apply edge_exists_h in H. destruct H. apply (sq_h_get _ _ _ _ _ R); auto.
    - apply edge_exists_v in H. destruct H. apply (sq_v_get _ _ _ _ _ R); auto.
  Qed.
  Lemma rep_edge_out : forall h v g nf ef e, SqRep h v g nf ef -> ~ sq_edge_exists S h v e ->
    sg_edge_weight g e = None.
  Proof.
    intros h v g nf ef [[x y] []] R H.
    - rewrite edge_exists_h in H. eapply array_get_out; [apply (sq_h_wf _ _ _ _ _ R)|auto].
    - rewrite edge_exists_v in H. eapply array_get_out; [apply (sq_v_wf _ _ _ _ _ R)|auto].
  Qed.

  (** ** Writes *)

  Lemma array_update_some : forall X (a : Array2 X) h v x y f z, array_wf a h v ->
    0 <= x < h -> 0 <= y < v -> array_get a x y = Some z ->
    exists a', array_update a x y f = Some a' /\ array_wf a' h v /\
      array_get a' x y = Some (f z) /\
      forall x' y', (x', y') <> (x, y) -> array_get a' x' y' = array_get a x' y'.
  Proof.
    intros X a h v x y f z W Hx Hy Hz. unfold array_update. rewrite Hz.
    apply (array_set_ok _ a h v x y (f z)); auto.
  Qed.

  Lemma array_update_none : forall X (a : Array2 X) x y f, array_get a x y = None ->
    array_update a x y f = None.
  Proof. intros X a x y f H. unfold array_update. rewrite H. reflexivity. Qed.

  Lemma rep_node_write : forall h v g nf ef n f nf', SqRep h v g nf ef -> on_board h v n ->
    nf' n = f (nf n) -> (forall n', n' <> n -> nf' n' = nf n') ->
    exists g', sg_node_weight_mut g n f = Some g' /\ SqRep h v g' nf' ef.
  Proof.
    intros h v g nf ef [x y] f nf' R [Hx Hy] H1 H2. cbn [fst snd] in *.
    pose proof R as [W1 W2 W3 G1 G2 G3].
    destruct (array_update_some _ _ h v x y f (nf (x, y)) W1 Hx Hy (G1 x y Hx Hy)) as (a & E1 & E2 & E3 & E4).
    unfold sg_node_weight_mut. cbn [fst snd]. rewrite E1. cbn [option_map].
    eexists. split; [reflexivity|]. constructor; cbn [sg_nodes sg_horizontal sg_vertical]; auto.
    intros x' y' Hx' Hy'. destruct (cell_dec (x', y') (x, y)) as [Heq|Hne].
    - injection Heq as -> ->. rewrite E3. f_equal. symmetry. exact H1.
    - rewrite E4, G1, H2 by auto. reflexivity.
  Qed.

  Lemma edge_index_dec : forall a b : EdgeIndex, {a = b} + {a <> b}.
  Proof. decide equality; [decide equality|apply cell_dec]. Defined.

  Lemma rep_edge_write : forall h v g nf ef e f ef', SqRep h v g nf ef -> sq_edge_exists S h v e ->
    ef' e = f (ef e) -> (forall e', e' <> e -> ef' e' = ef e') ->
    exists g', sg_edge_weight_mut g e f = Some g' /\ SqRep h v g' nf ef'.
  Proof.
    intros h v g nf ef [[x y] ax] f ef' R He H1 H2. pose proof R as [W1 W2 W3 G1 G2 G3].
    unfold sg_edge_weight_mut. cbn [fst snd]. destruct ax.
    - apply edge_exists_h in He. destruct He as [Hx Hy].
      destruct (array_update_some _ _ _ v x y f _ W2 Hx Hy (G2 x y Hx Hy)) as (a & E1 & E2 & E3 & E4).
      rewrite E1. cbn [option_map]. eexists. split; [reflexivity|].
      constructor; cbn [sg_nodes sg_horizontal sg_vertical]; auto.
      + intros x' y' Hx' Hy'. destruct (cell_dec (x', y') (x, y)) as [Heq|Hne].
        * injection Heq as -> ->. rewrite E3. f_equal. symmetry. exact H1.
        * rewrite E4, G2 by auto. f_equal. symmetry. apply H2. congruence.
      + intros x' y' Hx' Hy'. rewrite G3 by auto. f_equal. symmetry. apply H2. discriminate.
    - apply edge_exists_v in He. destruct He as [Hx Hy].
      destruct (array_update_some _ _ h _ x y f _ W3 Hx Hy (G3 x y Hx Hy)) as (a & E1 & E2 & E3 & E4).
      rewrite E1. cbn [option_map]. eexists. split; [reflexivity|].
      constructor; cbn [sg_nodes sg_horizontal sg_vertical]; auto.
      + intros x' y' Hx' Hy'. rewrite G2 by auto. f_equal. symmetry. apply H2. discriminate.
      + intros x' y' Hx' Hy'. destruct (cell_dec (x', y') (x, y)) as [Heq|Hne].
        * injection Heq as -> ->. rewrite E3. f_equal. symmetry. exact H1.
        * rewrite E4, G3 by auto. f_equal. symmetry. apply H2. congruence.
  Qed.

  Lemma node_write_out : forall (g : graph) n f, sg_node_weight g n = None -> sg_node_weight_mut g n f = None.
  Proof.
    intros g n f H. unfold sg_node_weight_mut. rewrite array_update_none; auto.
  Qed.
  Lemma edge_write_out : forall (g : graph) e f, sg_edge_weight g e = None -> sg_edge_weight_mut g e f = None.
  Proof.
    intros g [n []] f H; unfold sg_edge_weight_mut, sg_edge_weight in *; cbn [fst snd] in *;
      rewrite array_update_none; auto.
  Qed.

  (** ** Built graphs *)

  Lemma pure_rep : forall m h v nf ef (g : graph), sq_size S h v ->
    sg_new_with m h v (node_fun (fun u n => (nf n, u))) (edge_fun (fun u n a => (ef (n, a), u))) tt
      = Ok (g, tt) -> SqRep h v g nf ef.
  Proof.
    intros m h v nf ef g Hs H.
    destruct (new_with_rep (fun u n => (nf n, u)) (fun u n a => (ef (n, a), u)) m h v tt Hs)
      as (g' & E' & R). rewrite E' in H. injection H as ->.
    eapply rep_ext; [exact R| |].
    - reflexivity.
    - intros [n []] _; reflexivity.
  Qed.

  Lemma built_size : forall m h v (fn : unit -> NodeIndex -> N * unit) fe (g : graph) st,
    is_usize h -> is_usize v -> sg_new_with m h v (node_fun fn) (edge_fun fe) tt = Ok (g, st) ->
    sq_size S h v.
  Proof.
    intros m h v fn fe g st Hh Hv H.
    assert (D : sq_size S h v \/ ~ sq_size S h v) by (unfold sq_size; destruct (loops_v S); lia).
    destruct D as [D|D]; auto. rewrite new_with_panics in H by auto. discriminate.
  Qed.

  Lemma same_size_wf : forall X (a b : Array2 X) h v, same_size a b -> array_wf b h v -> array_wf a h v.
  Proof. intros X a b h v (H1 & H2 & H3) (H4 & H5 & H6). repeat split; congruence. Qed.

  Lemma wf_get : forall X (a : Array2 X) h v x y, array_wf a h v -> 0 <= x < h -> 0 <= y < v ->
    exists w, array_get a x y = Some w.
  Proof.
    intros X a h v x y W Hx Hy. rewrite (array_get_ok _ _ _ _ _ _ W) by auto.
    destruct (nth_error (cells a) (Z.to_nat (x * v + y))) eqn:E1; eauto.
    apply nth_error_None in E1. destruct W as (_ & _ & W). pose proof (flat_index_lt h v x y). nia.
  Qed.

  Lemma built_rep : forall m h v (g : graph) nf ef, sq_size S h v -> SqBuilt m h v g nf ef ->
    SqRep h v g nf ef.
  Proof.
    intros m h v g nf ef Hs H. induction H.
    - eapply pure_rep; eauto.
    - assert (g = mkSquare na ha va) as ->.
      { unfold new_raw in H2. destruct m; [|congruence]. destruct (check_gen _ _); [|discriminate].
        destruct a; [|discriminate]. cbn in H2. congruence. }
      constructor; auto; intros x y Hx Hy; cbn [sg_nodes sg_horizontal sg_vertical].
      + destruct (wf_get _ _ _ _ x y H Hx Hy) as [w Ew]. rewrite Ew. f_equal. symmetry. auto.
      + destruct (wf_get _ _ _ _ x y H0 Hx Hy) as [w Ew]. rewrite Ew. f_equal. symmetry. auto.
      + destruct (wf_get _ _ _ _ x y H1 Hx Hy) as [w Ew]. rewrite Ew. f_equal. symmetry. auto.
    - destruct (on_board_b h v n) eqn:Eb.
      + assert (Hn : on_board h v n) by (unfold on_board_b, on_board in *; lia).
        destruct (rep_node_write _ _ _ _ _ _ f nf' IHSqBuilt Hn H1 H2) as (g2 & E2 & R2). congruence.
      + assert (Hn : ~ on_board h v n) by (unfold on_board_b, on_board in *; lia).
        rewrite (node_write_out g n f) in H0 by (eapply rep_node_out; eauto). discriminate.
    - assert (Hdec : sq_edge_exists S h v e \/ ~ sq_edge_exists S h v e).
      { destruct e as [[x y] []]; rewrite ?edge_exists_h, ?edge_exists_v; lia. }
      destruct Hdec as [He|He].
      + destruct (rep_edge_write _ _ _ _ _ _ f ef' IHSqBuilt He H1 H2) as (g2 & E2 & R2). congruence.
      + rewrite (edge_write_out g e f) in H0 by (eapply rep_edge_out; eauto). discriminate.
    - destruct IHSqBuilt as [R1 R2 R3 R4 R5 R6]. pose proof (same_size_wf _ _ _ _ _ H0 R1) as W.
      constructor; auto. intros x y Hx Hy. cbn [nodes_mut sg_nodes].
      destruct (wf_get _ _ _ _ x y W Hx Hy) as [w Ew]. rewrite Ew. f_equal. symmetry. apply H1. auto.
    - destruct IHSqBuilt as [R1 R2 R3 R4 R5 R6]. pose proof (same_size_wf _ _ _ _ _ H0 R2) as W.
      constructor; auto; intros x y Hx Hy; cbn [horizontal_mut sg_horizontal sg_vertical].
      + destruct (wf_get _ _ _ _ x y W Hx Hy) as [w Ew]. rewrite Ew. f_equal. symmetry. apply H1. auto.
      + rewrite H2. auto.
    - destruct IHSqBuilt as [R1 R2 R3 R4 R5 R6]. pose proof (same_size_wf _ _ _ _ _ H0 R3) as W.
      constructor; auto; intros x y Hx Hy; cbn [vertical_mut sg_horizontal sg_vertical].
      + rewrite H2. auto.
      + destruct (wf_get _ _ _ _ x y W Hx Hy) as [w Ew]. rewrite Ew. f_equal. symmetry. apply H1. auto.
  Qed.
End Build.
