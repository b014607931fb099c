(** * Demo: concrete graphs used by the examples beside the theorems. *)

From Verif Require Import Machine Store Axes Shapes Lattice Spec Main1.

(** Recognisable weights: node (x, y) weighs 10 x + y, edge (x, y) of the i-th axis
    weighs 1000 + 100 x + 10 y + i. *)
Definition demo_node (c : Cell) : Z := 10 * fst c + snd c.
Definition demo_edge {A D} (s : Shape Cell A D) (c : Cell) (a : A) : Z :=
  1000 + 100 * fst c + 10 * snd c + Z.of_nat (ax_to_index (sh_axis s) a).

Definition demo {A D} (s : Shape Cell A D) (m : mode) : LatticeGraph Cell A D Z Z :=
  match new_with s (fun st c => (demo_node c, st)) (fun st c a => (demo_edge s c a, st)) m tt with
  | Ok (g, _) => g
  | Fail _ => mkGraph (mkArray2 0 0 []) [] s
  end.

Lemma demo_stored : forall A D (s : Shape Cell A D) G m, Stored s G ->
  Built m s G (demo s m) demo_node (demo_edge s).
Proof.
  intros A D s G m H. apply built_new.
  destruct (c01 (m := m) H demo_node (demo_edge s)) as (g & Hg & _).
  unfold demo. rewrite Hg. reflexivity.
Qed.

Lemma demo_built : forall A D (s : Shape Cell A D) G m, Supported s G ->
  Built m s G (demo s m) demo_node (demo_edge s).
Proof. intros A D s G m H. apply demo_stored. apply st_supported. exact H. Qed.

(** Running an iterator to its end. *)
Fixpoint collect {St X} (next : St -> outcome (option X * St)) (n : nat) (it : St)
  : outcome (list X) :=
  match n with
  | O => Fail FDiverge
  | S n =>
      let! (x, it) := next it in
      match x with
      | Some x => let! l := collect next n it in Ok (x :: l)
      | None => Ok []
      end
  end.

Lemma fits_small : forall w h, 0 <= w <= 1000 -> 0 <= h <= 1000 -> fits w h.
Proof. intros w h Hw Hh. unfold fits. split; [lia|]. split; [lia|]. nia. Qed.

(** A 3 x 2 undirected square board. *)
Definition sq := square_shape 3 2.
Definition sqG := square_geometry square_axes 3 2.
Lemma sq_ok : Supported sq sqG.
Proof. apply sup_square. apply fits_small; lia. Qed.

(** A 3 x 3 undirected board of offset hexagons, odd rows shifted. *)
Definition hx := hex_offset_r OddR 3 3.
Definition hxG := offset_r_geometry hexr_axes OddR 3 3.
Lemma hx_ok : Supported hx hxG.
Proof. apply sup_offset_r. apply fits_small; lia. Qed.

(** A 3 x 2 board of offset hexagons looped from east to west. *)
Definition lp := hex_offset_r_lew OddR 3 2.
Definition lpG := offset_r_loop_geometry hexr_axes OddR 3 2.
Lemma lp_ok : Supported lp lpG.
Proof. apply sup_offset_r_loop. apply fits_small; lia. Qed.

(** A 3 x 3 directed board of axial hexagons. *)
Definition hd := hex_axial_r_dir HAxial EvenR 3 3.
Definition hdG := axial_r_geometry (directed_axes hexr_axes) HAxial EvenR 3 3.
Lemma hd_ok : Supported hd hdG.
Proof. apply sup_axial_r_dir; [apply fits_small; lia|exact I]. Qed.

(** The same with 16 bit hex2d coordinates, undirected. *)
Definition h16 := hex_axial_r (Hex2d (-32768) 32767) OddR 3 3.
Definition h16G := axial_r_geometry hexr_axes (Hex2d (-32768) 32767) OddR 3 3.
Lemma h16_ok : Supported h16 h16G.
Proof. apply sup_axial_r; [apply fits_small; lia|]. unfold axial_fits, co_r. cbn. lia. Qed.

(** Shapes that do not implement a lattice: offset [OddQ], doubled coordinates, and an axial
    loop of three rows. *)
Definition oq := hex_offset_q OddQ 3 3.
Definition oqG := rect_code_geometry hexq_axes oq 3 3.
Lemma oq_ok : Stored oq oqG.
Proof. apply st_offset_q. apply fits_small; lia. Qed.

Definition db := double_shape 4 3.
Definition dbG := double_code_geometry 4 3.
Lemma db_ok : Stored db dbG.
Proof. apply st_double. apply fits_small; lia. Qed.

Definition al := hex_axial_r_lew HAxial OddR 3 3.
Definition alG := axial_code_geometry hexr_axes al HAxial 0 3 3.
Lemma al_ok : Stored al alG.
Proof. apply (st_axial_r_loop HAxial OddR 3 3); [apply fits_small; lia|exact I]. Qed.
