(** * SquareDemo: concrete [SquareGraph]s for the examples and counterexamples. *)

From Verif Require Import Machine Store Axes Shapes Lattice Spec SquareGraph SpecSquare Basics
  SquareProofs SquareMain Main1 Demo.
From Coq Require Import ZifyBool ZifyNat.

Definition sq_node (n : NodeIndex) : Z := 10 * fst n + snd n.
Definition sq_edge (e : EdgeIndex) : Z :=
  100 * (match snd e with Horizontal => 1 | Vertical => 2 end) + 10 * fst (fst e) + snd (fst e).

Definition sqd (ix : IxType) (S : LoopShape) (m : mode) (h v : Z) : SquareGraph Z Z ix S :=
  match sg_new_with m h v (node_fun (fun u n => (sq_node n, u)))
          (edge_fun (fun u n a => (sq_edge (n, a), u))) tt with
  | Ok (g, _) => g
  | Fail _ => mkSquare (mkArray2 0 0 []) (mkArray2 0 0 []) (mkArray2 0 0 [])
  end.

Lemma sqd_built : forall ix S m h v, sq_size S h v -> SqBuilt m h v (sqd ix S m h v) sq_node sq_edge.
Proof.
  intros ix S m h v HS. constructor. unfold sqd.
  destruct (new_with_rep (ix := ix) (fun u n => (sq_node n, u)) (fun u n a => (sq_edge (n, a), u)) m h v tt HS)
    as (g & -> & _). f_equal. f_equal. destruct (state_after _ _ _ tt). reflexivity.
Qed.

Ltac sq_size := unfold sq_size; cbn; lia.
Ltac index_fits := unfold sq_index_fits; cbn; lia.

(** A 3 by 2 board looped horizontally, and one without loop. *)
Definition hl := sqd IxU8 HorizontalLoop Debug 3 2.
Lemma hl_size : sq_size HorizontalLoop 3 2. Proof. sq_size. Qed.
Lemma hl_fits : sq_index_fits IxU8 3 2. Proof. index_fits. Qed.
Lemma hl_built : SqBuilt Debug 3 2 hl sq_node sq_edge. Proof. apply sqd_built, hl_size. Qed.
Definition ds := sqd IxU32 DefaultShape Debug 3 2.
Lemma ds_size : sq_size DefaultShape 3 2. Proof. sq_size. Qed.
Lemma ds_fits : sq_index_fits IxU32 3 2. Proof. index_fits. Qed.
Lemma ds_built : SqBuilt Debug 3 2 ds sq_node sq_edge. Proof. apply sqd_built, ds_size. Qed.

(** ** Counterexamples *)

Lemma c43_refuted : exists (g : SquareGraph Z Z IxU32 VerticalLoop) nf ef it,
  SqBuilt Debug 3 0 g nf ef /\ sg_node_count g = 0 /\
  sg_node_indices_next (ix := IxU32) Debug (sg_node_identifiers g) = Ok (Some (1, 0), it) /\
  sg_node_indices_size_hint Debug (sg_node_identifiers g) = Ok (0, Some 0) /\
  sg_node_indices_size_hint Debug it = Fail FPanic.
Proof.
  exists (sqd IxU32 VerticalLoop Debug 3 0), sq_node, sq_edge, (mkNI 3 1 0 1).
  split; [apply sqd_built; sq_size|]. vm_compute. auto.
Qed.

Lemma c47_refuted : exists (g : SquareGraph Z Z IxU8 HorizontalLoop) nf ef r x t,
  SqBuilt Debug 3 2 g nf ef /\ sq_neighbour HorizontalLoop 3 2 (2, 1) (Foward Horizontal) = Some t /\
  get_edge_reference Debug g (2, 1) (Foward Horizontal) = Ok (Some r) /\
  sq_view IxU8 HorizontalLoop Debug r = Ok x /\
  x = (((0, 1), Horizontal), 101, (0, 1), (1, 1)) /\
  sq_edge_view HorizontalLoop 3 2 ef (2, 1) (Foward Horizontal)
    = Some (((2, 1), Horizontal), 121, (2, 1), (0, 1)).
Proof.
  exists hl, sq_node, sq_edge, (mkSqRef ((0, 1), Horizontal) 101 true (Some 3, None)), (((0, 1), Horizontal), 101, (0, 1), (1, 1)), (0, 1).
  split; [apply hl_built|]. vm_compute. auto 10.
Qed.

Lemma c48_refuted : exists (g : SquareGraph Z Z IxU32 DefaultShape) nf ef n,
  SqBuilt Release 3 2 g nf ef /\
  get_edge_reference Release g n (Backward Vertical) = Fail FUB.
Proof.
  exists (sqd IxU32 DefaultShape Release 3 2), sq_node, sq_edge, (3, 1).
  split; [apply sqd_built, ds_size|]. vm_compute. auto.
Qed.

(** Exchanging the array of horizontal edges for an empty one. *)
Lemma c58_refuted : exists (g : SquareGraph Z Z IxU32 DefaultShape) nf ef,
  SqBuilt Release 3 2 g nf ef /\
  sg_edges_next Release (horizontal_mut g (fun _ => mkArray2 0 0 [])) (sg_edges g (0, 0)) = Fail FUB.
Proof.
  exists (sqd IxU32 DefaultShape Release 3 2), sq_node, sq_edge.
  split; [apply sqd_built, ds_size|]. vm_compute. auto.
Qed.

Lemma c59_refuted : exists (g : SquareGraph Z Z IxU8 HorizontalLoop) nf ef a b,
  SqBuilt Debug 3 2 g nf ef /\ SqPath Debug g 1 a b /\ ni_distance Debug a b = Ok 2.
Proof.
  exists hl, sq_node, sq_edge, (0, 0), (2, 0). split; [apply hl_built|]. split; [|reflexivity].
  eapply sq_path_step with (b := (2, 0)); [| |constructor].
  - apply (c44 hl_size hl_fits hl_built (0, 0)). split; cbn; lia.
  - vm_compute. auto.
Qed.

(** 257 columns with 8-bit indices. *)
Lemma c60_refuted : exists (g : SquareGraph Z Z IxU8 DefaultShape) nf ef l,
  SqBuilt Debug 257 1 g nf ef /\
  collect (sg_node_indices_next (ix := IxU8) Debug) 300 (sg_node_identifiers g) = Ok l /\
  nth_error l 0 = Some (0, 0) /\ nth_error l 256 = Some (0, 0) /\
  sg_from_index g 256 = Ok (0, 0) /\ sg_to_index Debug g (0, 0) = Ok 0.
Proof.
  exists (sqd IxU8 DefaultShape Debug 257 1), sq_node, sq_edge.
  eexists. split; [apply sqd_built; sq_size|]. split; [vm_compute; reflexivity|].
  vm_compute. auto.
Qed.

Lemma c61_refuted : exists (g : SquareGraph Z Z IxU32 DefaultShape) nf ef n,
  SqBuilt Release 3 2 g nf ef /\ sg_edges_next Release g (sg_edges g n) = Fail FUB.
Proof.
  exists (sqd IxU32 DefaultShape Release 3 2), sq_node, sq_edge, (4, 0).
  split; [apply sqd_built, ds_size|]. vm_compute. auto.
Qed.

Lemma c62_refuted : exists (g : SquareGraph Z Z IxU32 DefaultShape) nf ef it,
  SqBuilt Debug 3 2 g nf ef /\ ~ on_board 3 2 (3, 0) /\
  sg_neighbors_next (ix := IxU32) (S := DefaultShape) Debug (sg_neighbors g (3, 0)) = Ok (Some (2, 0), it).
Proof.
  exists ds, sq_node, sq_edge. eexists. split; [apply ds_built|]. split; [unfold on_board; cbn; lia|].
  vm_compute. reflexivity.
Qed.

(** ** The successor of [ds] *)

Definition made {A D} (s : Shape Cell A D) (m : mode) (nf : Cell -> Z) (ef : Cell -> A -> Z)
  : LatticeGraph Cell A D Z Z :=
  match new_with s (fun st c => (nf c, st)) (fun st c a => (ef c a, st)) m tt with
  | Ok (g, _) => g
  | Fail _ => mkGraph (mkArray2 0 0 []) [] s
  end.

Lemma made_built : forall A D (s : Shape Cell A D) G m nf ef, Stored s G ->
  Built m s G (made s m nf ef) nf ef.
Proof.
  intros A D s G m nf ef H. apply built_new.
  destruct (c01 (m := m) H nf ef) as (g & Hg & _).
  unfold made. rewrite Hg. reflexivity.
Qed.

Definition sq_successor : LatticeGraph Cell SquareAxis DirectedSquareAxis Z Z :=
  made (square_shape 3 2) Debug sq_node (fun c a => sq_edge (c, new_axis a)).
Lemma sq_successor_built : Built Debug (square_shape 3 2) (square_geometry square_axes 3 2)
  sq_successor sq_node (fun c a => sq_edge (c, new_axis a)).
Proof. apply made_built, st_supported, sq_ok. Qed.

(** ** Connectedness *)

Lemma c53_square : forall (N E : Type) (ix : IxType) (S : LoopShape) (m : mode) (h v : Z),
  sq_size S h v -> sq_index_fits ix h v ->
  forall (g : SquareGraph N E ix S) nf ef, SqBuilt m h v g nf ef ->
  forall a b, on_board h v a -> on_board h v b -> exists k, SqPath m g k a b.
Proof.
  intros N E ix S m h v SZ FX g nf ef B a b Ha Hb.
  destruct (c49 SZ FX B a b Ha Hb) as (k & _ & P & _). exists k. exact P.
Qed.
