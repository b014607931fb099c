(** * MoreProofs: hashing, default shapes, zero-sized weights, panics of closures. *)

From Verif Require Import Machine Store Axes Shapes Lattice Spec SquareGraph SpecSquare More Spec9
  Basics GeoProofs RepProofs ShapeProofs Main1 Main2 DropProofs SquareProofs
  SquareMain.
From Coq Require Import ZifyBool ZifyNat Permutation.
Ltac Zify.zify_post_hook ::= Z.div_mod_to_equations.

(** ** Closures that panic *)

Fixpoint seq_p {St P X} (f : St -> P -> option X * St) (l : list P) (st : St)
  : list X * St * bool :=
  match l with
  | [] => ([], st, true)
  | p :: l =>
      match f st p with
      | (Some x, st) => let '(xs, st, ok) := seq_p f l st in (x :: xs, st, ok)
      | (None, st) => ([], st, false)
      end
  end.

Lemma seq_p_length : forall St P X (f : St -> P -> option X * St) l st xs st',
  seq_p f l st = (xs, st', true) -> length xs = length l.
Proof.
  intros St P X f. induction l as [|p l IH]; intros st xs st' H; cbn [seq_p] in H.
  - injection H as <- _. reflexivity.
  - destruct (f st p) as [[x|] s1]; [|discriminate].
    destruct (seq_p f l s1) as [[ys s2] ok] eqn:E. injection H as <- <- ->.
    cbn [length]. f_equal. eapply IH; eauto.
Qed.

Section FillP.
  Context {St X : Type} (f : St -> Z -> Z -> option X * St).
  Let fp (st : St) (p : Z * Z) : option X * St := f st (fst p) (snd p).
  Let body (hi : Z) := fun (acc : list X * St * bool) (vi : Z) =>
    let '(l, st, ok) := acc in
    if (ok : bool) then
      let '(x, st) := f st hi vi in
      match x with
      | Some x => (l ++ [x], st, true)
      | None => (l, st, false)
      end
    else acc.
  Definition add_p (acc : list X) (r : list X * St * bool) : list X * St * bool :=
    let '(xs, st, ok) := r in (acc ++ xs, st, ok).

  Lemma row_stop : forall hi l acc st, fold_left (body hi) l (acc, st, false) = (acc, st, false).
  Proof. intros hi. induction l as [|y l IH]; intros acc st; [reflexivity|]. cbn [fold_left]. apply IH. Qed.

  Lemma row_p : forall hi l acc st,
    fold_left (body hi) l (acc, st, true) = add_p acc (seq_p fp (map (fun y => (hi, y)) l) st).
  Proof.
    intros hi. induction l as [|y l IH]; intros acc st.
    - cbn. rewrite app_nil_r. reflexivity.
    - cbn [fold_left map seq_p]. unfold body at 2. unfold fp at 1. cbn [fst snd].
      destruct (f st hi y) as [[x|] s1].
      + rewrite IH. destruct (seq_p fp _ s1) as [[xs s2] ok]. cbn [add_p].
        rewrite <- app_assoc. reflexivity.
      + rewrite row_stop. cbn. rewrite app_nil_r. reflexivity.
  Qed.

  Lemma seq_p_app : forall l1 l2 st, seq_p fp (l1 ++ l2) st =
    let '(xs, st', ok) := seq_p fp l1 st in
    if (ok : bool) then add_p xs (seq_p fp l2 st') else (xs, st', false).
  Proof.
    induction l1 as [|p l1 IH]; intros l2 st.
    - cbn [app seq_p]. destruct (seq_p fp l2 st) as [[xs s2] ok]. reflexivity.
    - cbn [app seq_p]. destruct (fp st p) as [[x|] s1]; [|reflexivity].
      rewrite IH. destruct (seq_p fp l1 s1) as [[xs s2] ok]. destruct ok; [|reflexivity].
      destruct (seq_p fp l2 s2) as [[ys s3] ok]. reflexivity.
  Qed.

  Lemma fill_p_seq : forall h v st, fill_p f h v st = seq_p fp (sq_nodes h v) st.
  Proof.
    intros h v st. unfold fill_p, sq_nodes, board.
    assert (HS : forall l acc st, fold_left (fun acc hi => fold_left (body hi) (zrange v) acc) l (acc, st, false)
                 = (acc, st, false)).
    { induction l as [|x l IH]; intros acc s0; [reflexivity|]. cbn [fold_left]. rewrite row_stop. apply IH. }
    assert (H : forall l acc st,
      fold_left (fun acc hi => fold_left (body hi) (zrange v) acc) l (acc, st, true)
      = add_p acc (seq_p fp (flat_map (fun x => map (fun y => (x, y)) (zrange v)) l) st)).
    { induction l as [|x l IH]; intros acc s0.
      - cbn. rewrite app_nil_r. reflexivity.
      - cbn [fold_left flat_map]. rewrite row_p, seq_p_app.
        destruct (seq_p fp (map _ (zrange v)) s0) as [[xs s1] ok]. cbn [add_p]. destruct ok.
        + rewrite IH. destruct (seq_p fp _ s1) as [[ys s2] ok]. cbn [add_p]. rewrite app_assoc. reflexivity.
        + rewrite HS. reflexivity. }
    change (fold_left (fun acc hi => fold_left (body hi) (zrange v) acc) (zrange h) ([], st, true)
            = seq_p fp (flat_map (fun x => map (fun y => (x, y)) (zrange v)) (zrange h)) st).
    rewrite H. destruct (seq_p fp _ st) as [[xs s1] ok]. reflexivity.
  Qed.
End FillP.

Section Panic.
  Context {N E : Type} {ix : IxType} {S : LoopShape} {St : Type}
    (fn : St -> NodeIndex -> option N * St) (fe : St -> NodeIndex -> SqAxis -> option E * St).
  Notation graph := (SquareGraph N E ix S).

  Lemma calls_nodes : forall l rest st,
    let '(ws, st', ok) := seq_p (fun st p => node_fun fn st (fst p) (snd p)) l st in
    until_panic fn fe (map (fun n => CallNode n) l ++ rest) st
      = (if (ok : bool) then until_panic fn fe rest st' else (false, st')) /\
    made fn fe (map (fun n => CallNode n) l ++ rest) st
      = map NodeWeight ws ++ (if ok then made fn fe rest st' else []).
  Proof.
    induction l as [|c l IH]; intros rest st; cbn [seq_p map app until_panic made].
    - auto.
    - unfold node_fun at 1. rewrite <- (surjective_pairing c).
      destruct (fn st c) as [[x|] s1]; [|split; reflexivity]. specialize (IH rest s1).
      destruct (seq_p _ l s1) as [[ws s2] ok]. destruct IH as [-> ->]. split; reflexivity.
  Qed.

  Lemma calls_edges : forall a l rest st,
    let '(ws, st', ok) := seq_p (fun st p => edge_fun fe st (fst p) (snd p) a) l st in
    until_panic fn fe (map (fun n => CallEdge n a) l ++ rest) st
      = (if (ok : bool) then until_panic fn fe rest st' else (false, st')) /\
    made fn fe (map (fun n => CallEdge n a) l ++ rest) st
      = map EdgeWeight ws ++ (if ok then made fn fe rest st' else []).
  Proof.
    intros a. induction l as [|c l IH]; intros rest st; cbn [seq_p map app until_panic made].
    - auto.
    - unfold edge_fun at 1. rewrite <- (surjective_pairing c).
      destruct (fe st c a) as [[x|] s1]; [|split; reflexivity]. specialize (IH rest s1).
      destruct (seq_p _ l s1) as [[ws s2] ok]. destruct IH as [-> ->]. split; reflexivity.
  Qed.

  Lemma array_from_list : forall X h v (l : list X), 0 <= h -> 0 <= v ->
    Z.max 1 h * Z.max 1 v < 2 ^ 63 -> length l = length (sq_nodes h v) ->
    array_from_vec h v l = Ok (mkArray2 h v l).
  Proof.
    intros X h v l Hh Hv Hs Hl. unfold array_from_vec, alloc_ok, sq_nodes in *.
    rewrite Hl, board_length, IMAX1_pow by auto.
    replace (Z.max 1 h * Z.max 1 v <? 2 ^ 63) with true by lia.
    replace (_ =? h * v) with true by nia. reflexivity.
  Qed.

  Lemma c96 : forall m h v st, sq_size S h v ->
    match until_panic fn fe (sq_calls S h v) st with
    | (true, st') => exists g : graph,
        sg_new_with_p m h v (node_fun fn) (edge_fun fe) st = Ok (inl (g, st'))
    | (false, st') => exists dropped,
        sg_new_with_p (ix := ix) (S := S) m h v (node_fun fn) (edge_fun fe) st
          = Ok (inr (dropped, st')) /\
        Permutation dropped (made fn fe (sq_calls S h v) st)
    end.
  Proof.
    intros m h v st (Hh & Hv & Hs). unfold sg_new_with_p.
    assert (Hv0 : 0 <= v) by (destruct (loops_v S); lia).
    replace (0 <? h) with true by lia. cbn [negb].
    rewrite (usize_mul_ok m h v) by (rewrite USIZE_pow; nia). cbn [bind].
    rewrite fill_p_seq. unfold sq_calls.
    pose proof (calls_nodes (sq_nodes h v)
      (map (fun n => CallEdge n Horizontal) (sq_nodes (edge_columns S h) v) ++
       map (fun n => CallEdge n Vertical) (sq_nodes h (edge_rows S v))) st) as HN.
    match type of HN with context [seq_p ?f ?l ?s] => destruct (seq_p f l s) as [[ns s1] ok] eqn:En end. destruct HN as [HN1 HN2].
    rewrite HN1, HN2. destruct ok; cbn [negb].
    2:{ eexists. split; [reflexivity|]. rewrite app_nil_r. reflexivity. }
    assert (Hmh : (if LOOP_HORIZONTAL S then Ok h else usize_sub m h 1) = Ok (edge_columns S h)).
    { rewrite loops_h_eq. unfold edge_columns. destruct (loops_h S); auto.
      apply usize_sub_ok. rewrite USIZE_pow. nia. }
    assert (Hmv : (if LOOP_VERTICAL S then Ok v else usize_sub m v 1) = Ok (edge_rows S v)).
    { rewrite loops_v_eq. unfold edge_rows. destruct (loops_v S); auto.
      apply usize_sub_ok. rewrite USIZE_pow. nia. }
    assert (Hc : 0 <= edge_columns S h <= h) by (unfold edge_columns; destruct (loops_h S); lia).
    assert (Hr : 0 <= edge_rows S v <= v) by (unfold edge_rows; destruct (loops_v S); lia).
    rewrite (array_from_list _ h v ns); [|lia|lia|nia|eapply seq_p_length; eauto].
    rewrite Hmh. cbn [bind].
    rewrite (usize_mul_ok m (edge_columns S h) v) by (rewrite USIZE_pow; nia). cbn [bind cells].
    rewrite fill_p_seq.
    pose proof (calls_edges Horizontal (sq_nodes (edge_columns S h) v)
       (map (fun n => CallEdge n Vertical) (sq_nodes h (edge_rows S v))) s1) as HE.
    match type of HE with context [seq_p ?f ?l ?s] => destruct (seq_p f l s) as [[hs s2] ok] eqn:Eh end.
    destruct HE as [HE1 HE2]. rewrite HE1, HE2. destruct ok; cbn [negb].
    2:{ eexists. split; [reflexivity|]. rewrite app_nil_r. apply Permutation_app_comm. }
    rewrite (array_from_list _ (edge_columns S h) v hs); [|lia|lia|nia|eapply seq_p_length; eauto].
    rewrite Hmv. cbn [bind].
    rewrite (usize_mul_ok m h (edge_rows S v)) by (rewrite USIZE_pow; nia). cbn [bind cells].
    rewrite fill_p_seq.
    pose proof (calls_edges Vertical (sq_nodes h (edge_rows S v)) [] s2) as HV.
    rewrite app_nil_r in HV.
    match type of HV with context [seq_p ?f ?l ?s] => destruct (seq_p f l s) as [[vs s3] ok] eqn:Ev end.
    destruct HV as [HV1 HV2]. rewrite HV1, HV2. destruct ok; cbn [negb until_panic].
    2:{ eexists. split; [reflexivity|]. rewrite app_nil_r, app_assoc.
        eapply Permutation_trans; [apply Permutation_app_comm|]. apply Permutation_app_head.
        apply Permutation_app_comm. }
    rewrite (array_from_list _ h (edge_rows S v) vs); [|lia|lia|nia|eapply seq_p_length; eauto].
    cbn [bind].
    assert (Hraw : forall na ha va, nrows na = h -> ncols na = v -> nrows ha = edge_columns S h ->
      ncols ha = v -> nrows va = h -> ncols va = edge_rows S v ->
      new_raw m na ha va = Ok (mkSquare (N := N) (E := E) (ix := ix) (S := S) na ha va)).
    { intros na ha va N1 N2 H1 H2 V1 V2. unfold new_raw. destruct m; auto. unfold check_gen.
      cbn [sg_nodes sg_horizontal sg_vertical]. rewrite N1, N2, H1, H2, V1, V2.
      rewrite loops_h_eq, loops_v_eq. unfold edge_columns, edge_rows in *.
      assert (Hlt : h < 2 ^ 63 /\ v < 2 ^ 63) by nia.
      rewrite (usize_add_ok Debug) by (rewrite USIZE_pow; destruct (loops_h S); lia). cbn [bind].
      match goal with |- context [if ?b then _ else _] => replace b with true end.
      2: { destruct (loops_h S); lia. }
      rewrite (usize_add_ok Debug) by (rewrite USIZE_pow; destruct (loops_v S); lia). cbn [bind].
      match goal with |- context [debug_assert Debug ?b] => replace b with true end.
      2: { destruct (loops_v S); lia. }
      reflexivity. }
    rewrite Hraw by reflexivity. cbn [bind]. eauto.
  Qed.
End Panic.

(** With closures that do not panic this is [new_with]. *)
Lemma seq_p_total : forall St P X (f : St -> P -> X * St) l st,
  seq_p (fun st p => (Some (fst (f st p)), snd (f st p))) l st = (run f l st, after f l st, true).
Proof.
  intros St P X f. induction l as [|p l IH]; intros st; [reflexivity|].
  cbn [seq_p run]. rewrite IH. reflexivity.
Qed.

Lemma fill_p_total : forall St X (f : St -> Z -> Z -> X * St) h v st,
  fill_p (fun st x y => (Some (fst (f st x y)), snd (f st x y))) h v st
  = (fst (fill f h v st), snd (fill f h v st), true).
Proof.
  intros St X f h v st. rewrite fill_p_seq, fill_run. cbn [fst snd].
  apply (seq_p_total St (Z * Z) X (fun st p => f st (fst p) (snd p))).
Qed.

Lemma sg_new_with_p_total : forall N E ix S St m h v (fn : St -> Z -> Z -> N * St)
    (fe : St -> Z -> Z -> SqAxis -> E * St) st,
  sg_new_with_p (ix := ix) (S := S) m h v (fun st x y => (Some (fst (fn st x y)), snd (fn st x y)))
    (fun st x y a => (Some (fst (fe st x y a)), snd (fe st x y a))) st
  = match sg_new_with m h v fn fe st with Ok r => Ok (inl r) | Fail f => Fail f end.
Proof.
  intros N E ix S St m h v fn fe st. unfold sg_new_with_p, sg_new_with.
  destruct (negb (0 <? h)); [reflexivity|].
  destruct (usize_mul m h v); cbn [bind]; [|reflexivity].
  rewrite (fill_p_total _ _ fn). destruct (fill fn h v st) as [ns s1]. cbn [fst snd negb].
  destruct (array_from_vec h v ns); cbn [bind]; [|reflexivity].
  destruct (if LOOP_HORIZONTAL S then _ else _) as [mh|]; cbn [bind]; [|reflexivity].
  destruct (usize_mul m mh v); cbn [bind]; [|reflexivity].
  rewrite (fill_p_total _ _ (fun st x y => fe st x y Horizontal)).
  destruct (fill _ mh v s1) as [hs s2]. cbn [fst snd negb].
  destruct (array_from_vec mh v hs); cbn [bind]; [|reflexivity].
  destruct (if LOOP_VERTICAL S then _ else _) as [mv|]; cbn [bind]; [|reflexivity].
  destruct (usize_mul m h mv); cbn [bind]; [|reflexivity].
  rewrite (fill_p_total _ _ (fun st x y => fe st x y Vertical)).
  destruct (fill _ h mv s2) as [vs s3]. cbn [fst snd negb].
  destruct (array_from_vec h mv vs); cbn [bind]; [|reflexivity].
  destruct (new_raw m _ _ _); reflexivity.
Qed.

(** ** Comparing and hashing *)

Section Compare.
  Context {A D N E : Type} {m : mode} {s : Shape Cell A D} {G : Geometry A D}
    {cell : Z -> Z -> Cell} (RF : Refines m s G cell).
  Notation graph := (LatticeGraph Cell A D N E).

  Definition full_array (ef : Cell -> A -> E) (a : A) : Array2 (option E) :=
    mkArray2 (sh_horizontal s) (sh_vertical s) (map (fun c => Some (ef c a)) (geo_nodes G)).
  Definition full_memory (nf : Cell -> N) (ef : Cell -> A -> E) : graph :=
    mkGraph (mkArray2 (sh_horizontal s) (sh_vertical s) (map (fun c => Some (nf c)) (geo_nodes G)))
      (map (full_array ef) (ag_axes (geo_ax G))) s.

  Lemma zero_sized_memory : forall x nf ef, (forall a b : E, a = b) ->
    zero_sized x (memory (s := s) (G := G) nf ef) = full_memory nf (fun _ _ => x).
  Proof.
    intros x nf ef HU. unfold zero_sized, memory, full_memory. cbn [g_nodes g_edges g_s]. f_equal.
    rewrite map_map. apply map_ext. intros a. unfold as_written, edge_array, full_array.
    cbn [nrows ncols cells]. f_equal. rewrite map_map. apply map_ext. intros c.
    destruct (opt_edge ef c a) as [y|]; [|reflexivity]. f_equal. apply HU.
  Qed.

  Lemma eq_cells_some : forall X (eqb : X -> X -> bool) (f g : Cell -> X) l,
    eq_cells eqb (map (fun c => Some (f c)) l) (map (fun c => Some (g c)) l)
    = Ok (forallb (fun c => eqb (f c) (g c)) l).
  Proof.
    intros X eqb f g. induction l as [|c l IH]; [reflexivity|].
    cbn [map eq_cells forallb]. cbn [read_slot bind]. destruct (eqb (f c) (g c)); [exact IH|reflexivity].
  Qed.

  Lemma eq_full : forall nf1 nf2 x neq eeq sq, (eeq x x = true) ->
    eq_graph neq eeq sq (full_memory nf1 (fun _ _ => x)) (full_memory nf2 (fun _ _ => x))
    = Ok (forallb (fun c => neq (nf1 c) (nf2 c)) (geo_nodes G) && sq).
  Proof.
    intros nf1 nf2 x neq eeq sq He. unfold eq_graph, full_memory, eq_array. cbn [g_nodes g_edges nrows ncols cells].
    rewrite !Z.eqb_refl. cbn [andb]. rewrite eq_cells_some. cbn [bind].
    destruct (forallb _ (geo_nodes G)); [|reflexivity].
    assert (Hl : forall l, eq_arrays eeq (map (full_array (fun _ _ => x)) l) (map (full_array (fun _ _ => x)) l) = Ok true).
    { induction l as [|a l IH]; [reflexivity|]. cbn [map eq_arrays]. unfold eq_array, full_array at 1 2 3 4 5 6.
      cbn [nrows ncols cells]. rewrite !Z.eqb_refl. cbn [andb]. rewrite eq_cells_some.
      replace (forallb _ (geo_nodes G)) with true; [cbn [bind]; exact IH|].
      symmetry. apply forallb_forall. auto. }
    rewrite Hl. reflexivity.
  Qed.

  Lemma clone_full : forall nf ef cn ce, clone_graph cn ce (full_memory nf ef) = Ok (full_memory nf ef).
  Proof.
    intros nf ef cn ce. unfold clone_graph, full_memory. cbn [g_nodes g_edges g_s].
    rewrite clone_cells.
    2:{ cbn [cells]. intros x Hx. apply in_map_iff in Hx. destruct Hx as (c & <- & _). discriminate. }
    cbn [bind].
    assert (Hl : forall l acc, fold_outcome (fun l (a : Array2 (option E)) => let! a' := clone_array ce a in Ok (l ++ [a']))
       (map (full_array ef) l) acc = Ok (acc ++ map (full_array ef) l)).
    { induction l as [|a l IH]; intros acc; cbn [map fold_outcome]; [rewrite app_nil_r; reflexivity|].
      rewrite clone_cells.
      - cbn [bind]. rewrite IH, <- app_assoc. reflexivity.
      - cbn [full_array cells]. intros x Hx. apply in_map_iff in Hx. destruct Hx as (c & <- & _). discriminate. }
    rewrite Hl. reflexivity.
  Qed.

  Lemma hash_cells : forall X T (hx : X -> list T) (f : Cell -> X) l acc,
    fold_outcome (fun l x => let! w := read_slot x in Ok (l ++ hx w)) (map (fun c => Some (f c)) l) acc
    = Ok (acc ++ flat_map (fun c => hx (f c)) l).
  Proof.
    intros X T hx f. induction l as [|c l IH]; intros acc; cbn [map fold_outcome flat_map].
    - rewrite app_nil_r. reflexivity.
    - cbn [read_slot bind]. rewrite IH, <- app_assoc. reflexivity.
  Qed.

  Lemma hash_array_gap : forall X T hz (hx : X -> list T) a, In None (cells a) ->
    hash_array hz hx a = Fail FUB.
  Proof.
    intros X T hz hx a H. unfold hash_array. generalize (hz 2 ++ hz (nrows a) ++ hz (ncols a) ++ hz (Z.of_nat (length (cells a)))).
    induction (cells a) as [|x l IH]; intros acc; [destruct H|]. cbn [fold_outcome].
    destruct x as [x|]; cbn [read_slot bind]; [|reflexivity].
    apply IH. destruct H as [H|H]; [discriminate|auto].
  Qed.

  Lemma hash_array_ok : forall X T hz (hx : X -> list T) a, (forall x, In x (cells a) -> x <> None) ->
    exists y, hash_array hz hx a = Ok y.
  Proof.
    intros X T hz hx a H. unfold hash_array. generalize (hz 2 ++ hz (nrows a) ++ hz (ncols a) ++ hz (Z.of_nat (length (cells a)))).
    induction (cells a) as [|x l IH]; intros acc; [eexists; reflexivity|]. cbn [fold_outcome].
    destruct x as [x|]; [|exfalso; apply (H None); [left; auto|auto]]. cbn [read_slot bind].
    apply IH. intros y Hy. apply H. right. exact Hy.
  Qed.

  Lemma hash_gap : forall T hz (hn : N -> list T) (he : E -> list T) hs nf ef c a,
    In c (geo_nodes G) -> ~ edge_exists G c a ->
    hash_graph hz hn he hs (memory (s := s) (G := G) nf ef) = Fail FUB.
  Proof using RF.
    intros T hz hn he hs nf ef c a Hc Ha. unfold hash_graph, memory. cbn [g_nodes g_edges].
    unfold hash_array at 1. cbn [cells]. rewrite hash_cells. cbn [bind].
    assert (Hl : forall l acc, In a l ->
      fold_outcome (fun l a => let! x := hash_array hz he a in Ok (l ++ x))
        (map (edge_array (s := s) (G := G) ef) l) acc = Fail FUB).
    { induction l as [|b l IH]; intros acc Hin; [destruct Hin|]. cbn [map fold_outcome].
      destruct (gap_dec (s := s) (G := G) ef b) as [Hb|Hb].
      - rewrite hash_array_gap by exact Hb. reflexivity.
      - destruct Hin as [->|Hin].
        + exfalso. apply Hb. apply gap_iff. eauto.
        + destruct (hash_array_ok E T hz he (edge_array (s := s) (G := G) ef b)) as (y & ->);
            [apply no_gap; auto|]. cbn [bind]. apply IH; auto. }
    rewrite Hl by apply (axis_in RF). reflexivity.
  Qed.

  Lemma hash_full : forall T hz (hn : N -> list T) (he : E -> list T) hs nf (x : E),
    exists l, hash_graph hz hn he hs (full_memory nf (fun _ _ => x)) = Ok l /\
      forall nf', (forall c, In c (geo_nodes G) -> hn (nf' c) = hn (nf c)) ->
        hash_graph hz hn he hs (full_memory nf' (fun _ _ => x)) = Ok l.
  Proof.
    intros T hz hn he hs nf x.
    assert (Hl : forall l acc, exists y, fold_outcome (fun l a => let! x := hash_array hz he a in Ok (l ++ x))
        (map (full_array (fun _ _ => x)) l) acc = Ok y).
    { induction l as [|a l IH]; intros acc; cbn [map fold_outcome]; [eexists; reflexivity|].
      unfold hash_array at 1. cbn [full_array cells nrows ncols]. rewrite hash_cells. cbn [bind]. apply IH. }
    destruct (Hl (ag_axes (geo_ax G)) (hz (Z.of_nat (length (map (full_array (fun _ _ => x)) (ag_axes (geo_ax G))))))) as (y & Hy).
    unfold hash_graph, full_memory. cbn [g_nodes g_edges]. rewrite Hy.
    unfold hash_array at 1. cbn [cells nrows ncols]. rewrite hash_cells. cbn [bind].
    eexists. split; [reflexivity|]. intros nf' Hn.
    unfold hash_array. cbn [cells nrows ncols]. rewrite hash_cells. cbn [bind]. rewrite !map_length. do 3 f_equal.
    clear - Hn. induction (geo_nodes G) as [|c l IH]; [reflexivity|]. cbn [flat_map].
    rewrite Hn by (left; auto). f_equal. apply IH. intros; apply Hn; right; auto.
  Qed.
End Compare.

Section Stored.
  Context {A D N E : Type} {m : mode} {s : Shape Cell A D} {G : Geometry A D}
    (STO : Stored s G).
  Notation graph := (LatticeGraph Cell A D N E).

  Lemma c35_nodes : forall (g1 g2 : graph) nf1 ef1 nf2 ef2 neq eeq sq c,
    Built m s G g1 nf1 ef1 -> Built m s G g2 nf2 ef2 ->
    In c (geo_nodes G) -> neq (nf1 c) (nf2 c) = false -> eq_graph neq eeq sq g1 g2 = Ok false.
  Proof using STO.
    intros g1 g2 nf1 ef1 nf2 ef2 neq eeq sq c H1 H2 Hc Hn. refine_store m STO.
    rewrite (rep_memory RF _ _ _ (RepProofs.built_rep RF _ _ _ H1)), (rep_memory RF _ _ _ (RepProofs.built_rep RF _ _ _ H2)).
    unfold eq_graph, memory, eq_array. cbn [g_nodes nrows ncols cells]. rewrite !Z.eqb_refl. cbn [andb].
    rewrite eq_cells_some. cbn [bind]. replace (forallb _ _) with false; [reflexivity|].
    symmetry. apply Bool.not_true_is_false. intros Hf. rewrite forallb_forall in Hf.
    rewrite (Hf c Hc) in Hn. discriminate.
  Qed.

  Lemma c35_zero_sized : forall (g1 g2 : graph) nf1 ef1 nf2 ef2 neq eeq sq x cn ce,
    Built m s G g1 nf1 ef1 -> Built m s G g2 nf2 ef2 ->
    (forall a b : E, a = b) -> (forall a, eeq a a = true) ->
    eq_graph neq eeq sq (zero_sized x g1) (zero_sized x g2)
      = Ok (forallb (fun c => neq (nf1 c) (nf2 c)) (geo_nodes G) && sq) /\
    clone_graph cn ce (zero_sized x g1) = Ok (zero_sized x g1).
  Proof using STO.
    intros g1 g2 nf1 ef1 nf2 ef2 neq eeq sq x cn ce H1 H2 HU He. refine_store m STO.
    rewrite (rep_memory RF _ _ _ (RepProofs.built_rep RF _ _ _ H1)), (rep_memory RF _ _ _ (RepProofs.built_rep RF _ _ _ H2)).
    rewrite !zero_sized_memory by auto. split; [apply eq_full; auto|apply clone_full].
  Qed.

  Lemma c94_hash : forall (g : graph) nf ef T hz (hn : N -> list T) (he : E -> list T) hs c,
    Built m s G g nf ef -> In c (geo_nodes G) -> hash_graph hz hn he hs g = Fail FUB.
  Proof using STO.
    intros g nf ef T hz hn he hs c HB Hc. destruct (some_gap _ _ _ _ _ STO Hc) as (c' & a & Hc' & Ha).
    refine_store m STO. rewrite (rep_memory RF _ _ _ (RepProofs.built_rep RF _ _ _ HB)).
    eapply (hash_gap RF); eauto.
  Qed.

  Lemma c94_zero_sized : forall (g1 g2 : graph) nf1 ef1 nf2 ef2 neq eeq x T hz (hn : N -> list T) (he : E -> list T) hs,
    Built m s G g1 nf1 ef1 -> Built m s G g2 nf2 ef2 ->
    (forall a b : E, a = b) -> (forall a, eeq a a = true) ->
    (forall a b, neq a b = true -> hn a = hn b) ->
    exists l, hash_graph hz hn he hs (zero_sized x g1) = Ok l /\
      (eq_graph neq eeq true (zero_sized x g1) (zero_sized x g2) = Ok true ->
       hash_graph hz hn he hs (zero_sized x g2) = Ok l).
  Proof using STO.
    intros g1 g2 nf1 ef1 nf2 ef2 neq eeq x T hz hn he hs H1 H2 HU He Hh.
    destruct (c35_zero_sized g1 g2 nf1 ef1 nf2 ef2 neq eeq true x true true H1 H2 HU He) as [-> _].
    refine_store m STO.
    rewrite (rep_memory RF _ _ _ (RepProofs.built_rep RF _ _ _ H1)), (rep_memory RF _ _ _ (RepProofs.built_rep RF _ _ _ H2)).
    rewrite !zero_sized_memory by auto.
    destruct (hash_full (s := s) (G := G) T hz hn he hs nf1 x) as (l & Hl & Hs). exists l. split; auto.
    intros [= Hb]. rewrite andb_true_r, forallb_forall in Hb. apply Hs. intros c Hc. symmetry. auto.
  Qed.
End Stored.

Lemma c35_sizes : forall A D N E m (s1 s2 : Shape Cell A D) G1 G2 (g1 g2 : LatticeGraph Cell A D N E)
    nf1 ef1 nf2 ef2 neq eeq sq,
  Stored s1 G1 -> Stored s2 G2 -> Built m s1 G1 g1 nf1 ef1 -> Built m s2 G2 g2 nf2 ef2 ->
  (sh_horizontal s1, sh_vertical s1) <> (sh_horizontal s2, sh_vertical s2) ->
  eq_graph neq eeq sq g1 g2 = Ok false.
Proof.
  intros A D N E m s1 s2 G1 G2 g1 g2 nf1 ef1 nf2 ef2 neq eeq sq S1 S2 H1 H2 Hne.
  assert (HA : nrows (g_nodes g1) = sh_horizontal s1 /\ ncols (g_nodes g1) = sh_vertical s1).
  { refine_store m S1. rewrite (rep_memory RF _ _ _ (RepProofs.built_rep RF _ _ _ H1)). split; reflexivity. }
  assert (HB : nrows (g_nodes g2) = sh_horizontal s2 /\ ncols (g_nodes g2) = sh_vertical s2).
  { refine_store m S2. rewrite (rep_memory RF _ _ _ (RepProofs.built_rep RF _ _ _ H2)). split; reflexivity. }
  destruct HA as [A1 A2], HB as [B1 B2]. unfold eq_graph, eq_array. rewrite A1, A2, B1, B2.
  destruct (_ && _) eqn:Eb; [|reflexivity]. exfalso. apply Hne.
  apply andb_prop in Eb. destruct Eb as [Ex Ey]. f_equal; lia.
Qed.

(** ** Default shapes *)

Lemma c95_new : forall A D N E m (s : Shape Cell A D) G, Stored s G -> forall (dn : N) (de : E),
  exists g, new_default m s dn de = Ok g /\ new_s m s dn de = Ok g /\
    Built m s G g (fun _ => dn) (fun _ _ => de) /\
    (forall c, In c (geo_nodes G) -> node_weight m g c = Ok (Some dn)) /\
    (forall c a, edge_exists G c a -> edge_weight m g (c, a) = Ok (Some de)).
Proof.
  intros A D N E m s G STO dn de.
  destruct (c01 (m := m) STO (fun _ => dn) (fun _ _ => de)) as (g & Hg & Hn & _).
  destruct (c02 (m := m) STO (fun _ => dn) (fun _ _ => de)) as (g' & Hg' & He & _).
  rewrite Hg in Hg'. injection Hg' as <-. exists g. unfold new_s, new_default. rewrite Hg. cbn [bind].
  repeat split; auto. apply built_new. exact Hg.
Qed.

(** An empty board. *)
Lemma c95_none : forall A D N E m (s : Shape Cell A D) G, Stored s G -> geo_nodes G = [] ->
  forall St (n : St -> Cell -> N * St) (e : St -> Cell -> A -> E * St) st,
  exists g, new_with s n e m st = Ok (g, st) /\ g_s g = s /\
    Drains (node_indices_next m (g_s g)) (node_identifiers g) [] /\
    Drains (edge_references_next m g) (edge_references g) [].
Proof.
  intros A D N E m s G STO HG St n e st.
  destruct (c04 (m := m) STO St n e st) as (g & Hg & _). unfold spec_calls in Hg. rewrite HG in Hg. cbn in Hg.
  exists g. split; auto. destruct (stateful_pure STO St n e st g st Hg) as (nf & ef & HB).
  pose proof (built_new m s G nf ef g HB) as HB'.
  pose proof (c06 STO _ _ _ HB') as H1. pose proof (c15_drains STO _ _ _ HB') as H2.
  unfold spec_edge_references in H2. rewrite HG in *. cbn in H2. split; auto.
  refine_store m STO. apply (RepProofs.built_rep RF _ _ _ HB').
Qed.

Lemma square_default_stored : Stored square_default (square_geometry square_axes 0 0).
Proof. apply st_supported, sup_square. unfold fits. lia. Qed.
Lemma square_dir_default_stored :
  Stored square_dir_default (square_geometry (directed_axes square_axes) 0 0).
Proof. apply st_supported, sup_square_dir. unfold fits. lia. Qed.

Lemma c95_default : forall N E m St (n : St -> Cell -> N * St) (e : St -> Cell -> _ -> E * St) st,
  exists g, new_with_s square_default n e m st = Ok (g, st) /\
    node_count m g = Ok 0 /\
    Drains (node_indices_next m (g_s g)) (node_identifiers g) [] /\
    Drains (edge_references_next m g) (edge_references g) [].
Proof.
  intros N E m St n e st.
  destruct (c95_none _ _ N E m _ _ square_default_stored eq_refl St n e st) as (g & H1 & Hs & H2 & H3).
  exists g. split; [exact H1|]. split; [|split; auto].
  refine (eq_trans (f_equal (fun s => sh_node_count s m) Hs) _). destruct m; reflexivity.
Qed.
Lemma c95_dir_default : forall N E m St (n : St -> Cell -> N * St) (e : St -> Cell -> _ -> E * St) st,
  exists g, new_with_s square_dir_default n e m st = Ok (g, st) /\
    node_count m g = Ok 0 /\
    Drains (node_indices_next m (g_s g)) (node_identifiers g) [] /\
    Drains (edge_references_next m g) (edge_references g) [].
Proof.
  intros N E m St n e st.
  destruct (c95_none _ _ N E m _ _ square_dir_default_stored eq_refl St n e st) as (g & H1 & Hs & H2 & H3).
  exists g. split; [exact H1|]. split; [|split; auto].
  refine (eq_trans (f_equal (fun s => sh_node_count s m) Hs) _). destruct m; reflexivity.
Qed.

(** ** Counting what is left of [node_references] *)

Lemma c43_count : forall N E ix S m h v, sq_size S h v -> sq_index_fits ix h v ->
  forall (g : SquareGraph N E ix S) nf ef, SqBuilt m h v g nf ef ->
  forall l it, Consumed (sg_node_references_next (ix := ix) m) (sg_node_references g) l it ->
  sg_node_references_count it = h * v - Z.of_nat (length l).
Proof.
  intros N E ix S m h v HS HI g nf ef HB l it Hc.
  destruct (c43_references HS HI HB) as [_ H].
  destruct (H l it Hc) as (rest & Hr & Hh). unfold sg_node_references_size_hint in Hh.
  injection Hh as Hl _. unfold sg_node_references_count.
  pose proof (f_equal (@length _) Hr) as HL. rewrite map_length, app_length in HL. unfold sq_nodes in HL.
  destruct HS as (Hh & Hv & _). rewrite board_length in HL by (destruct (loops_v S); lia).
  assert (0 <= h * v) by (destruct (loops_v S); nia). lia.
Qed.
