(** * TarjanMain: [tarjan_scc] on both graph types. *)

From Verif Require Import Machine Store Axes Shapes Lattice SquareGraph Traverse Clients Scc Tarjan
  Spec SpecSquare Spec2 Spec4 Spec10 Spec11 Spec18 Basics AxisProofs GeoProofs ShapeProofs StoreProofs
  LoopProofs OffboardProofs OffboardMore GraphProofs RepProofs VisitProofs Main1 Main2 TraverseProofs
  AnySearch SearchProofs SquareProofs SquareIter SquareMain SquareSearch ClientsProofs ClientsMain
  AnySearchMain Follow ConnFault SccMain TarjanProofs.
From Coq Require Import ZifyBool ZifyNat Permutation.
Ltac Zify.zify_post_hook ::= Z.div_mod_to_equations.

Lemma one_list : forall C (board : list C) ls, NoDup board -> Permutation (concat ls) board ->
  (forall l, In l ls -> l <> [] /\ forall b, In b board -> In b l) ->
  exists l, ls = match board with [] => [] | _ => [l] end /\ Permutation l board.
Proof.
  intros C board ls ND P H. destruct ls as [|l ls].
  - cbn in P. apply Permutation_nil in P. subst. exists []. auto.
  - destruct (H l (or_introl eq_refl)) as [Hl HA].
    assert (ls = []) as ->.
    { destruct ls as [|k ls]; auto. exfalso. destruct (H k (or_intror (or_introl eq_refl))) as [Hk _].
      destruct k as [|x k]; [congruence|].
      assert (Hx : In x board).
      { eapply Permutation_in; [exact P|]. cbn [concat]. apply in_or_app. right. left. auto. }
      apply Permutation_sym in P. apply (Permutation_NoDup P) in ND. cbn [concat] in ND.
      apply (NoDup_disjoint _ _ _ ND x); auto. left. auto. }
    cbn in P. rewrite app_nil_r in P. exists l. split; auto.
    destruct board; auto. apply Permutation_sym, Permutation_nil in P. congruence.
Qed.

Section Lat.
  Context {A D N E : Type} {m : mode} {s : Shape Cell A D} {G : Geometry A D}
    (STO : Stored s G) (g : LatticeGraph Cell A D N E) (nf : Cell -> N) (ef : Cell -> A -> E)
    (HB : Built m s G g nf ef).
  Let SMALL : Z.of_nat (length (geo_nodes G)) <= 2 ^ 63 := stored_few STO.
  Notation reached := (Reached (neighbors g) (neighbors_next m g) (geo_nodes G)).
  Notation leads a b := (exists n, reached a n b).

  Lemma stray_step : stray (geo_nodes G) (spec_neighbors G) <->
    exists c l x, In c (geo_nodes G) /\ Drains (neighbors_next m g c) (neighbors g c) l /\
      In x l /\ ~ In x (geo_nodes G).
  Proof using STO HB.
    split.
    - intros (c & x & Hc & Hx & Hn). exists c, (spec_neighbors G c), x.
      split; auto. split; auto. apply (any_nb STO g nf ef HB); auto.
    - intros (c & l & x & Hc & HD & Hx & Hn). exists c, x. split; auto. split; auto.
      rewrite (Drains_det _ _ _ _ (any_nb STO g nf ef HB c Hc) HD). auto.
  Qed.

  Lemma tarjan_lat :
    (stray (geo_nodes G) (spec_neighbors G) -> lattice_tarjan m g = Fail FPanic) /\
    (~ stray (geo_nodes G) (spec_neighbors G) -> exists ls, lattice_tarjan m g = Ok ls /\
       Permutation (concat ls) (geo_nodes G) /\
       (forall l, In l ls -> l <> [] /\ forall a, In a l -> forall b, In b l <-> leads a b /\ leads b a) /\
       (forall l1 l l2 a b, ls = l1 ++ l :: l2 -> In a l -> leads a b -> In b (concat (l1 ++ [l])))).
  Proof using STO HB SMALL.
    destruct (c05 STO g nf ef HB) as (C1 & _ & C2 & C3).
    set (ix := fun c => match to_index m g c with Ok z => Z.to_nat z | Fail _ => O end).
    assert (HX : forall c, In c (geo_nodes G) -> exists i, nth_error (geo_nodes G) i = Some c /\
      to_index m g c = Ok (Z.of_nat i) /\ ix c = i).
    { intros c Hc. destruct (In_nth_error _ _ Hc) as (i & Hi). exists i. split; auto.
      destruct (C3 i c Hi) as [T _]. split; auto. unfold ix. rewrite T. apply Nat2Z.id. }
    apply (tarjan_any m (node_identifiers g) (node_indices_next m (g_s g)) (neighbors g)
      (neighbors_next m g) (node_bound m g) (to_index m g) cell_dec (geo_nodes G) (spec_neighbors G) ix).
    - apply (c06 STO g nf ef HB).
    - exact C2.
    - apply (any_nb STO g nf ef HB).
    - apply (degree_few STO).
    - exact C1.
    - intros c Hc. destruct (HX c Hc) as (i & I1 & I2 & I3). rewrite I2, I3. split; auto.
      apply nth_error_Some. congruence.
    - intros a b Ha Hb Hab. destruct (HX a Ha) as (i & I1 & _ & I3).
      destruct (HX b Hb) as (j & J1 & _ & J3). congruence.
    - intros c x Hc Hx Hn. apply (in_spec_neighbors STO) in Hx. destruct Hx as (d & Hd).
      apply (c05_off_board STO g nf ef x HB); auto. eapply step_locatable; eauto.
    - exact SMALL.
  Qed.

  Lemma c112 :
    ((exists c l x, In c (geo_nodes G) /\ Drains (neighbors_next m g c) (neighbors g c) l /\
        In x l /\ ~ In x (geo_nodes G)) -> lattice_tarjan m g = Fail FPanic) /\
    (~ (exists c l x, In c (geo_nodes G) /\ Drains (neighbors_next m g c) (neighbors g c) l /\
          In x l /\ ~ In x (geo_nodes G)) ->
     exists ls, lattice_tarjan m g = Ok ls /\
       Permutation (concat ls) (geo_nodes G) /\
       (forall l, In l ls -> l <> [] /\ forall a, In a l -> forall b, In b l <-> leads a b /\ leads b a) /\
       (forall l1 l l2 a b, ls = l1 ++ l :: l2 -> In a l -> leads a b -> In b (concat (l1 ++ [l])))).
  Proof using STO HB SMALL.
    destruct tarjan_lat as [T1 T2]. split.
    - intros H. apply T1, stray_step. exact H.
    - intros H. apply T2. intros K. apply H, stray_step. exact K.
  Qed.
End Lat.

(** ** Which shapes *)

Lemma double_seal : forall w h c d t, fits w h -> In c (board w h double_cell) ->
  double_move_r w h Release c d = Ok (Some t) -> In t (board w h double_cell).
Proof.
  intros w h [x y] d t F Hin H. apply in_double in Hin. pose proof (fits_bounds _ _ F) as B.
  rewrite IMAX1_val in B.
  rewrite double_off in H; auto; cbn [fst snd]; try lia.
  injection H as H. unfold one_sided_step, vadd in H. cbn [fst snd] in H.
  destruct d; cbn [hexr_vec fst snd] in H;
    match type of H with context [if ?g then _ else _] => destruct g eqn:? end;
    cbn [hd_opt] in H; try discriminate; injection H as <-; apply in_double; lia.
Qed.

Lemma sealed_in : forall A D (s : Shape Cell A D) G c d t, Sealed s G -> In c (geo_nodes G) ->
  geo_step G c d = Some t -> In t (geo_nodes G).
Proof.
  intros A D s G c d t SL. destruct SL as [A D s G EN|b w h F|w h F]; intros Hc Hd.
  - eapply enclosed_in; eauto.
  - change (geo_step _ c d) with
      (match sh_move_coord (hex_offset_q_lew b w h) Release c d with Ok t => t | Fail _ => None end) in Hd.
    destruct (sh_move_coord (hex_offset_q_lew b w h) Release c d) as [t'|] eqn:Em; [subst t'|discriminate].
    eapply (q_loop_step_in b w h c d t F Hc). exact Em.
  - change (geo_step _ c d) with
      (match double_move_r w h Release c d with Ok t => t | Fail _ => None end) in Hd.
    destruct (double_move_r w h Release c d) as [t'|] eqn:Em; [subst t'|discriminate].
    eapply (double_seal w h c d t F Hc). exact Em.
Qed.

Lemma drafty_step : forall A D (s : Shape Cell A D) G, Drafty s G ->
  exists c d t, In c (geo_nodes G) /\ geo_step G c d = Some t /\ ~ In t (geo_nodes G).
Proof.
  intros A D s G DR. destruct DR as [A D s G LK|b w h F C1 C2 C3].
  - destruct (leaky_step _ _ _ _ LK) as (c & a & t & H1 & _ & H2 & H3). eauto 6.
  - destruct (q_leak b w h F C1 C2 C3) as (c & a & t & H1 & _ & H2 & H3). eauto 6.
Qed.

Lemma sealed_or_drafty : forall A D (s : Shape Cell A D) G, Stored s G -> Sealed s G \/ Drafty s G.
Proof.
  intros A D s G STO. destruct (every_shape _ _ _ _ STO) as [EN|[LK|UN]].
  - left. apply sl_enclosed. auto.
  - right. apply dr_leaky. auto.
  - destruct UN as [b w h F C1 C2 C3|b w h F _ _ _|w h F _].
    + right. apply dr_offset_q; auto.
    + left. apply sl_offset_q_loop; auto.
    + left. apply sl_double; auto.
Qed.

Section Where.
  Context {A D N E : Type} {m : mode} {s : Shape Cell A D} {G : Geometry A D}
    (STO : Stored s G) (g : LatticeGraph Cell A D N E) (nf : Cell -> N) (ef : Cell -> A -> E)
    (HB : Built m s G g nf ef).

  Lemma c112_where :
    (Sealed s G /\ exists ls, lattice_tarjan m g = Ok ls) \/
    (Drafty s G /\ lattice_tarjan m g = Fail FPanic).
  Proof using STO HB.
    destruct (tarjan_lat STO g nf ef HB) as [T1 T2].
    destruct (sealed_or_drafty _ _ _ _ STO) as [SL|DR].
    - left. split; auto. destruct T2 as (ls & L & _); [|eauto].
      intros (c & x & Hc & Hx & Hn). apply (in_spec_neighbors STO) in Hx. destruct Hx as (d & Hd).
      apply Hn. eapply sealed_in; eauto.
    - right. split; auto. apply T1. destruct (drafty_step _ _ _ _ DR) as (c & d & t & Hc & Hd & Hn).
      exists c, t. split; auto. split; auto. apply (in_spec_neighbors STO). eauto.
  Qed.
End Where.

Section One.
  Context {A D N E : Type} {m : mode} {s : Shape Cell A D} {G : Geometry A D}
    (SUP : Supported s G) (g : LatticeGraph Cell A D N E) (nf : Cell -> N) (ef : Cell -> A -> E)
    (HB : Built m s G g nf ef).
  Let STO := st_supported _ _ _ _ SUP.

  Lemma lat_leads : forall a b, In a (geo_nodes G) -> In b (geo_nodes G) ->
    exists n, Reached (neighbors g) (neighbors_next m g) (geo_nodes G) a n b.
  Proof using SUP HB.
    pose proof (any_nb STO g nf ef HB) as HNB.
    intros a b Ha Hb. destruct (c98_dfs STO g nf ef HB a Ha) as (l & L1 & L2 & L3 & L4 & _).
    apply L4. apply (lat_reach SUP a Ha l); auto.
    - apply L4. exists 0%nat. constructor.
    - intros c Hc. apply L4 in Hc. destruct Hc as (n & Hc). inversion Hc; subst; auto.
    - intros c c' Hc Hi. apply L4 in Hc. apply L4. destruct Hc as (n & Hc). exists (S n).
      assert (Hcn : In c (geo_nodes G)) by (inversion Hc; subst; auto).
      eapply reached_step; [exact Hc|apply HNB; auto|auto|].
      apply (in_spec_neighbors STO) in Hi. destruct Hi as (d & Hd).
      eapply (rg_in (supported_regular _ _ _ _ SUP)); eauto.
  Qed.

  Lemma c112_one : exists l,
    lattice_tarjan m g = Ok (match geo_nodes G with [] => [] | _ => [l] end) /\
    Permutation l (geo_nodes G).
  Proof using SUP HB.
    destruct (tarjan_lat STO g nf ef HB) as [_ T2]. destruct T2 as (ls & L1 & L2 & L3 & _).
    { intros (c & x & Hc & Hx & Hn). apply (in_spec_neighbors STO) in Hx. destruct Hx as (d & Hd).
      apply Hn. eapply (sealed_in _ _ s G c d); auto. apply sl_enclosed, en_supported. auto. }
    destruct (c05 STO g nf ef HB) as (_ & _ & ND & _).
    destruct (one_list _ (geo_nodes G) ls ND L2) as (l & -> & P); [|eauto].
    intros l Hl. destruct (L3 l Hl) as [K1 K2]. split; auto. intros b Hb.
    destruct l as [|a l]; [destruct (K1 eq_refl)|]. apply (K2 a); [left; auto|].
    assert (Ha : In a (geo_nodes G)).
    { eapply Permutation_in; [exact L2|]. apply in_concat. exists (a :: l). split; auto. left. auto. }
    split; apply lat_leads; auto.
  Qed.
End One.

Section Sq.
  Context {N E : Type} {ix : IxType} {S : LoopShape} {m : mode} {h v : Z}
    (SZ : sq_size S h v) (FX : sq_index_fits ix h v).
  Context (g : SquareGraph N E ix S) (nf : NodeIndex -> N) (ef : EdgeIndex -> E)
    (B : SqBuilt m h v g nf ef).
  Notation next := (fun _ : NodeIndex => sg_neighbors_next (ix := ix) (S := S) m).
  Notation nodes := (sq_nodes h v).

  Lemma c113 : 1 <= v -> exists l,
    square_tarjan m g = Ok (match nodes with [] => [] | _ => [l] end) /\ Permutation l nodes.
  Proof using SZ FX B.
    intros Hv. destruct (c43_identifiers SZ FX B Hv) as [HID _].
    destruct (c43_order SZ B) as (_ & _ & C3).
    set (ixf := fun c => match sg_to_index m g c with Ok z => Z.to_nat z | Fail _ => O end).
    assert (HX : forall c, In c nodes -> exists i, nth_error nodes i = Some c /\
      sg_to_index m g c = Ok (Z.of_nat i) /\ ixf c = i).
    { intros c Hc. destruct (In_nth_error _ _ Hc) as (i & Hi). exists i. split; auto.
      pose proof (C3 i c Hi) as T. split; auto. unfold ixf. rewrite T. apply Nat2Z.id. }
    destruct (tarjan_any m (sg_node_identifiers g) (sg_node_indices_next (ix := ix) m)
      (sg_neighbors g) next (Ok (sg_node_bound g)) (sg_to_index m g) cell_dec nodes
      (sq_neighbours S h v) ixf) as [_ T2].
    - exact HID.
    - apply sq_nodes_nodup.
    - apply (sqc_nb SZ FX g nf ef B).
    - intros c Hc. apply (sqc_deg (S := S) (h := h) (v := v)). auto.
    - destruct (c42 SZ FX B) as (C1 & _). rewrite (sq_nodes_length SZ). f_equal. auto.
    - intros c Hc. destruct (HX c Hc) as (i & I1 & I2 & I3). rewrite I2, I3. split; auto.
      apply nth_error_Some. congruence.
    - intros a b Ha Hb Hab. destruct (HX a Ha) as (i & I1 & _ & I3).
      destruct (HX b Hb) as (j & J1 & _ & J3). congruence.
    - intros c x Hc Hx Hn. exfalso. apply Hn. eapply sqc_in; eauto.
    - apply (sq_nodes_few SZ).
    - destruct T2 as (ls & L1 & L2 & L3 & _).
      { intros (c & x & Hc & Hx & Hn). apply Hn. eapply sqc_in; eauto. }
      destruct (one_list _ nodes ls (sq_nodes_nodup h v) L2) as (l & -> & P); [|eauto].
      intros l Hl. destruct (L3 l Hl) as [K1 K2]. split; auto. intros b Hb.
      destruct l as [|a l]; [destruct (K1 eq_refl)|]. apply (K2 a); [left; auto|].
      assert (Ha : In a nodes).
      { eapply Permutation_in; [exact L2|]. apply in_concat. exists (a :: l). split; auto. left. auto. }
      split; apply (sq_leads SZ FX g nf ef B); auto.
  Qed.

  Lemma c113_no_rows : v = 0 -> 2 <= h -> square_tarjan m g = Fail FPanic.
  Proof using SZ FX B.
    intros Ev Hh. pose proof (c43_no_rows SZ FX B Ev) as HD.
    destruct (counts g nf ef (SquareProofs.built_rep _ _ _ _ _ _ SZ B)) as (_ & K2 & _).
    destruct (c42 SZ FX B) as (C1 & _).
    unfold square_tarjan, tarjan_scc.
    assert (E0 : sg_node_bound g = 0) by (rewrite C1, Ev; lia). rewrite E0. cbn [bind].
    rewrite (for_each_exact _ _ _ _ _ _ _ _ HD).
    2:{ rewrite map_length. unfold zrange. rewrite map_length, seq_length.
        destruct SZ as (S1 & S2 & S3). destruct (loops_v S); lia. }
    unfold zrange. destruct (Z.to_nat (h - 1)) as [|k] eqn:Ek; [lia|].
    cbn [seq map fold_outcome]. unfold root_of.
    assert (ET : sg_to_index m g (1 + Z.of_nat 0, 0) = Ok 0).
    { unfold sg_to_index. rewrite K2, Ev. cbn [fst snd]. destruct m; reflexivity. }
    rewrite ET. reflexivity.
  Qed.
End Sq.
