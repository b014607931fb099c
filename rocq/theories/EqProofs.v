(** * EqProofs: comparing two graphs, slot by slot. *)

From Verif Require Import Machine Store Axes Shapes Lattice Spec Basics AxisProofs GeoProofs
  ShapeProofs StoreProofs GraphProofs RepProofs Main1 DropProofs MoreProofs.
From Coq Require Import ZifyBool ZifyNat.

Lemma eq_walk : forall X K (eqb : X -> X -> bool) (f g : K -> option X) l1 k l2,
  (forall k', In k' l1 -> exists x y, f k' = Some x /\ g k' = Some y /\ eqb x y = true) ->
  eq_cells eqb (map f (l1 ++ k :: l2)) (map g (l1 ++ k :: l2))
    = (let! a := read_slot (f k) in let! b := read_slot (g k) in
       if eqb a b then eq_cells eqb (map f l2) (map g l2) else Ok false).
Proof.
  intros X K eqb f g l1 k l2. induction l1 as [|k' l1 IH]; intros H; [reflexivity|].
  cbn [app map eq_cells]. destruct (H k') as (x & y & -> & -> & E1); [left; auto|].
  cbn [read_slot bind]. rewrite E1. apply IH. intros; apply H; right; auto.
Qed.

Lemma eq_walk_all : forall X K (eqb : X -> X -> bool) (f g : K -> option X) l,
  (forall k', In k' l -> exists x y, f k' = Some x /\ g k' = Some y /\ eqb x y = true) ->
  eq_cells eqb (map f l) (map g l) = Ok true.
Proof.
  intros X K eqb f g. induction l as [|k' l IH]; intros H; [reflexivity|].
  cbn [map eq_cells]. destruct (H k') as (x & y & -> & -> & E1); [left; auto|].
  cbn [read_slot bind]. rewrite E1. apply IH. intros; apply H; right; auto.
Qed.

Section Stored.
  Context {A D N E : Type} {m : mode} {s : Shape Cell A D} {G : Geometry A D}
    (STO : Stored s G).
  Notation graph := (LatticeGraph Cell A D N E).

  Lemma c35_edges : forall (g1 g2 : graph) nf1 ef1 nf2 ef2 neq eeq sq,
    Built m s G g1 nf1 ef1 -> Built m s G g2 nf2 ef2 ->
    (forall c, In c (geo_nodes G) -> neq (nf1 c) (nf2 c) = true) ->
    forall a_before a a_after c_before c c_after,
    ag_axes (geo_ax G) = a_before ++ a :: a_after ->
    geo_nodes G = c_before ++ c :: c_after ->
    (forall b x, In b a_before /\ In x (geo_nodes G) \/ b = a /\ In x c_before ->
       edge_exists G x b /\ eeq (ef1 x b) (ef2 x b) = true) ->
    (~ edge_exists G c a -> eq_graph neq eeq sq g1 g2 = Fail FUB) /\
    (edge_exists G c a -> eeq (ef1 c a) (ef2 c a) = false ->
       eq_graph neq eeq sq g1 g2 = Ok false).
  Proof using STO.
    intros g1 g2 nf1 ef1 nf2 ef2 neq eeq sq H1 H2 HN la a lb lc c ld EA EC HP. refine_store m STO.
    rewrite (rep_memory RF _ _ _ (RepProofs.built_rep RF _ _ _ H1)),
      (rep_memory RF _ _ _ (RepProofs.built_rep RF _ _ _ H2)).
    match goal with |- (_ -> ?x = _) /\ _ => remember x as r eqn:Er end.
    unfold eq_graph, memory, eq_array at 1 in Er. cbn [g_nodes g_edges nrows ncols cells] in Er.
    rewrite !Z.eqb_refl in Er. cbn [andb] in Er. rewrite eq_cells_some in Er. cbn [bind] in Er.
    replace (forallb _ (geo_nodes G)) with true in Er by (symmetry; apply forallb_forall; auto).
    assert (HS : forall b x, In b la /\ In x (geo_nodes G) \/ b = a /\ In x lc ->
      exists y z, opt_edge (G := G) ef1 x b = Some y /\ opt_edge (G := G) ef2 x b = Some z /\
        eeq y z = true).
    { intros b x Hb. destruct (HP b x Hb) as [X1 X2]. rewrite !opt_edge_some by auto. eauto 6. }
    assert (HA : eq_arrays eeq (map (edge_array (s := s) (G := G) ef1) (ag_axes (geo_ax G)))
       (map (edge_array (s := s) (G := G) ef2) (ag_axes (geo_ax G)))
       = eq_arrays eeq (map (edge_array (s := s) (G := G) ef1) (a :: lb))
           (map (edge_array (s := s) (G := G) ef2) (a :: lb))).
    { rewrite EA. assert (HL : forall b x, In b la -> In x (geo_nodes G) ->
        exists y z, opt_edge (G := G) ef1 x b = Some y /\ opt_edge (G := G) ef2 x b = Some z /\
          eeq y z = true) by (intros; apply HS; auto).
      match goal with |- _ = ?x => remember x as R eqn:ER end.
      clear -HL ER. induction la as [|b la IH]; [symmetry; exact ER|]. cbn [app map]. cbn [eq_arrays].
      unfold eq_array, edge_array at 1 2 3 4 5 6. cbn [nrows ncols cells].
      rewrite !Z.eqb_refl. cbn [andb].
      rewrite eq_walk_all by (intros; apply HL; [left|]; auto). cbn [bind].
      apply IH. intros; apply HL; [right|]; auto. }
    rewrite HA in Er. clear HA. cbn [map eq_arrays] in Er. unfold eq_array at 1 in Er.
    unfold edge_array at 1 2 3 4 5 6 in Er. cbn [nrows ncols cells] in Er.
    rewrite !Z.eqb_refl in Er. cbn [andb] in Er. rewrite EC in Er.
    rewrite eq_walk in Er by (intros; apply HS; auto). subst r. split.
    - intros Hn. unfold opt_edge. destruct (geo_step G c (ag_fwd (geo_ax G) a)) eqn:Es; [|reflexivity].
      exfalso. apply Hn. split; [rewrite EC; apply in_or_app; right; left; auto|congruence].
    - intros Hx Hf. rewrite !opt_edge_some by auto. cbn [read_slot bind]. rewrite Hf. reflexivity.
  Qed.
End Stored.
