(** * PruneMain: [depth_first_search] with a pruning visitor on both graph types. *)

From Verif Require Import Machine Store Axes Shapes Lattice SquareGraph Traverse Clients Spec
  SpecSquare Spec2 Spec4 Spec10 Spec11 Basics AxisProofs GeoProofs ShapeProofs StoreProofs LoopProofs
  OffboardProofs OffboardMore GraphProofs RepProofs VisitProofs Main1 Main2 TraverseProofs AnySearch
  SearchProofs SquareProofs SquareIter SquareMain SquareSearch ClientsProofs ClientsMain
  AnySearchMain PostAny SccProofs SccMain Follow DfsEvents Spec16 DfsProofs DfsCycle DfsMain
  PruneDfs Spec30 PruneProofs.
From Coq Require Import ZifyBool ZifyNat Permutation.

Section Lat.
  Context {A D N E : Type} {m : mode} {s : Shape Cell A D} {G : Geometry A D}
    (STO : Stored s G) (g : LatticeGraph Cell A D N E) (nf : Cell -> N) (ef : Cell -> A -> E)
    (HB : Built m s G g nf ef).

  Lemma c137 : forall Ids (it : Ids) next starts, Drains next it starts ->
    Z.of_nat (length starts) + 1 < 2 ^ 72 -> incl starts (geo_nodes G) ->
    forall V B (visitor : V -> DfsEvent Cell -> Control V B) w,
    exists tr, PrunedFirst (pruned_by visitor w) (spec_neighbors G) (geo_nodes G) starts tr /\
      lattice_pdfs m g it next visitor w = ptold visitor w tr.
  Proof using STO HB.
    intros Ids it next starts HD HL HI V B visitor w.
    pose proof (any_nb STO g nf ef HB) as HNB. pose proof (stored_few STO) as SMALL.
    pose proof (any_off STO g nf ef HB) as HOF. pose proof (degree_few STO) as HDF.
    refine_store m STO. pose proof (RepProofs.built_rep RF _ _ _ HB) as [Hgs _].
    exact (any_pdfs m (neighbors g) (neighbors_next m g) (vm_visit m (g_s g))
      (vm_is_visited m (g_s g)) cell_dec (geo_nodes G) (spec_neighbors G)
      (VMrep (s := s) (G := G) (cell := cell)) HNB HDF HOF
      (vr_visit g nf ef HB cell RF) (vr_visited g nf ef HB cell RF) (vr_ext cell) SMALL
      (visit_map g) (visit_map_rep RF g Hgs) it next starts HD HL HI V B visitor w
      (pruned_by visitor w) (fun _ _ => eq_refl)).
  Qed.

  Lemma c137_rule : forall Ids (it : Ids) next starts, Drains next it starts ->
    Z.of_nat (length starts) + 1 < 2 ^ 72 -> incl starts (geo_nodes G) ->
    forall stop skip V B (visitor : V -> DfsEvent Cell -> Control V B) w, Ruled stop skip visitor ->
    exists tr w', PrunedFirst (fun _ => ruled stop skip) (spec_neighbors G) (geo_nodes G) starts tr /\
      lattice_pdfs m g it next visitor w = Ok (inl w') /\ state_after visitor w tr = Some w' /\
      forall c, In c (discovered tr) <->
        Leads (allowed stop skip (spec_neighbors G)) (geo_nodes G) starts c.
  Proof using STO HB.
    intros Ids it next starts HD HL HI stop skip V B visitor w HR.
    pose proof (any_nb STO g nf ef HB) as HNB. pose proof (stored_few STO) as SMALL.
    pose proof (any_off STO g nf ef HB) as HOF. pose proof (degree_few STO) as HDF.
    refine_store m STO. pose proof (RepProofs.built_rep RF _ _ _ HB) as [Hgs _].
    exact (any_ruled m (neighbors g) (neighbors_next m g) (vm_visit m (g_s g))
      (vm_is_visited m (g_s g)) cell_dec (geo_nodes G) (spec_neighbors G)
      (VMrep (s := s) (G := G) (cell := cell)) HNB HDF HOF
      (vr_visit g nf ef HB cell RF) (vr_visited g nf ef HB cell RF) (vr_ext cell) SMALL
      (visit_map g) (visit_map_rep RF g Hgs) it next starts HD HL HI stop skip V B visitor w HR).
  Qed.
End Lat.

Section Sq.
  Context {N E : Type} {ix : IxType} {S : LoopShape} {m : mode} {h v : Z}
    (SZ : sq_size S h v) (FX : sq_index_fits ix h v).
  Context (g : SquareGraph N E ix S) (nf : NodeIndex -> N) (ef : EdgeIndex -> E)
    (B : SqBuilt m h v g nf ef).
  Notation next := (fun _ : NodeIndex => sg_neighbors_next (ix := ix) (S := S) m).
  Notation nodes := (sq_nodes h v).

  Lemma c138 : forall Ids (it : Ids) nx starts, Drains nx it starts ->
    Z.of_nat (length starts) + 1 < 2 ^ 72 -> incl starts nodes ->
    forall V B (visitor : V -> DfsEvent NodeIndex -> Control V B) w,
    exists tr, PrunedFirst (pruned_by visitor w) (sq_neighbours S h v) nodes starts tr /\
      square_pdfs m g it nx visitor w = ptold visitor w tr.
  Proof using SZ FX B.
    intros Ids it nx starts HD HL HI V B' visitor w.
    exact (any_pdfs m (sg_neighbors g) next svm_visit svm_is_visited cell_dec nodes
      (sq_neighbours S h v) (SVM (h := h) (v := v))
      (sqc_nb SZ FX g nf ef B) (sqc_deg (S := S) (h := h) (v := v))
      ltac:(intros c x Hc Hx Hn; exfalso; apply Hn; eapply sqc_in; eauto)
      (svr_visit (g := g)) (svr_visited (g := g)) svr_ext (sq_nodes_few SZ) (sg_visit_map g)
      (svm_fresh SZ B) it nx starts HD HL HI V B' visitor w
      (pruned_by visitor w) (fun _ _ => eq_refl)).
  Qed.

  Lemma c138_rule : forall Ids (it : Ids) nx starts, Drains nx it starts ->
    Z.of_nat (length starts) + 1 < 2 ^ 72 -> incl starts nodes ->
    forall stop skip V B (visitor : V -> DfsEvent NodeIndex -> Control V B) w, Ruled stop skip visitor ->
    exists tr w', PrunedFirst (fun _ => ruled stop skip) (sq_neighbours S h v) nodes starts tr /\
      square_pdfs m g it nx visitor w = Ok (inl w') /\ state_after visitor w tr = Some w' /\
      forall c, In c (discovered tr) <->
        Leads (allowed stop skip (sq_neighbours S h v)) nodes starts c.
  Proof using SZ FX B.
    intros Ids it nx starts HD HL HI stop skip V B' visitor w HR.
    exact (any_ruled m (sg_neighbors g) next svm_visit svm_is_visited cell_dec nodes
      (sq_neighbours S h v) (SVM (h := h) (v := v))
      (sqc_nb SZ FX g nf ef B) (sqc_deg (S := S) (h := h) (v := v))
      ltac:(intros c x Hc Hx Hn; exfalso; apply Hn; eapply sqc_in; eauto)
      (svr_visit (g := g)) (svr_visited (g := g)) svr_ext (sq_nodes_few SZ) (sg_visit_map g)
      (svm_fresh SZ B) it nx starts HD HL HI stop skip V B' visitor w HR).
  Qed.
End Sq.

(** Visitors that write down the events: one that prunes the discovery of (1, 0), one that prunes
    the tree edge from (0, 0) to (1, 0), and one that prunes where it must not. *)
Definition wall (w : list (DfsEvent Cell)) (e : DfsEvent Cell) : Control (list (DfsEvent Cell)) unit :=
  match e with
  | Discover (1, 0) _ => Prune (w ++ [e])
  | _ => Continue (w ++ [e])
  end.
Definition gate (w : list (DfsEvent Cell)) (e : DfsEvent Cell) : Control (list (DfsEvent Cell)) unit :=
  match e with
  | TreeEdge (0, 0) (1, 0) => Prune (w ++ [e])
  | _ => Continue (w ++ [e])
  end.
Definition late (w : list (DfsEvent Cell)) (e : DfsEvent Cell) : Control (list (DfsEvent Cell)) unit :=
  match e with Finish _ _ => Prune w | _ => Continue w end.

Definition at_wall (c : Cell) : bool := (fst c =? 1) && (snd c =? 0).
Definition at_gate (a b : Cell) : bool := (fst a =? 0) && (snd a =? 0) && at_wall b.

Lemma wall_ruled : Ruled at_wall (fun _ _ => false) wall.
Proof.
  intros w e. exists (w ++ [e]). destruct e as [[x y] t| | | |]; try reflexivity.
  cbn [ruled]. unfold at_wall, wall. cbn [fst snd].
  destruct x as [|[]|]; destruct y; reflexivity.
Qed.

Lemma gate_ruled : Ruled (fun _ => false) at_gate gate.
Proof.
  intros w e. exists (w ++ [e]). destruct e as [|[x y] [x' y']| | |]; try reflexivity.
  cbn [ruled]. unfold at_gate, at_wall, gate. cbn [fst snd].
  destruct x; try reflexivity; destruct y; try reflexivity;
    destruct x' as [|[]|]; destruct y'; reflexivity.
Qed.
