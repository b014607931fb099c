(** * Spec3: dropping, cloning and comparing graphs, and directions of hex2d. *)

From Verif Require Import Machine Store Axes Shapes Lattice Spec.

(** ** Destructors *)

(** The elements of a list with their positions. *)
Definition numbered {X} (l : list X) : list (nat * X) := combine (List.seq 0 (length l)) l.

(** The destructors that run for the edges of a graph on the lattice [G], axis by axis and
    cell by cell: two for every edge of the lattice, and one for every slot without edge. *)
Definition drops_of_slot {A D} (G : Geometry A D) (j : nat) (a : A) (k : nat) (c : Cell)
  : list DropEvent :=
  match geo_step G c (ag_fwd (geo_ax G) a) with
  | Some _ => [DropEdge j k true; DropEdge j k true]
  | None => [DropEdge j k false]
  end.
Definition edge_drops {A D} (G : Geometry A D) : list DropEvent :=
  flat_map (fun ja => flat_map (fun kc => drops_of_slot G (fst ja) (snd ja) (fst kc) (snd kc))
      (numbered (geo_nodes G)))
    (numbered (ag_axes (geo_ax G))).

(** One destructor for every node. *)
Definition node_drops {A D} (G : Geometry A D) : list DropEvent :=
  map (fun kc => DropNode (fst kc) true) (numbered (geo_nodes G)).

(** ** Cloning *)

(** Every slot of the edge arrays belongs to an edge. *)
Definition all_edges_exist {A D} (G : Geometry A D) : Prop :=
  forall c a, In c (geo_nodes G) -> edge_exists G c a.

(** ** hex2d *)

(** The next direction clockwise. *)
Definition clockwise (d : Hex2dDirection) : Hex2dDirection :=
  match d with
  | HYZ => HXZ | HXZ => HXY | HXY => HZY | HZY => HZX | HZX => HYX | HYX => HYZ
  end.

(** The values of a signed integer type of at most 64 bits are lo..=hi. *)
Definition signed_type (lo hi : Z) : Prop :=
  exists n, 0 <= n <= 63 /\ lo = - 2 ^ n /\ hi = 2 ^ n - 1.

(** The same board with coordinates of hex2d, over integers lo..=hi, and with [HexAxial]:
    [Narrow lo hi w h s s']. *)
Inductive Narrow (lo hi w h : Z) : forall A D : Type,
  Shape Cell A D -> Shape Cell A D -> Prop :=
| nw_r b : Narrow lo hi w h _ _ (hex_axial_r (Hex2d lo hi) b w h) (hex_axial_r HAxial b w h)
| nw_r_dir b :
    Narrow lo hi w h _ _ (hex_axial_r_dir (Hex2d lo hi) b w h) (hex_axial_r_dir HAxial b w h)
| nw_r_lew b :
    Narrow lo hi w h _ _ (hex_axial_r_lew (Hex2d lo hi) b w h) (hex_axial_r_lew HAxial b w h)
| nw_r_dir_lew b :
    Narrow lo hi w h _ _ (hex_axial_r_dir_lew (Hex2d lo hi) b w h)
      (hex_axial_r_dir_lew HAxial b w h)
| nw_q b : Narrow lo hi w h _ _ (hex_axial_q (Hex2d lo hi) b w h) (hex_axial_q HAxial b w h)
| nw_q_dir b :
    Narrow lo hi w h _ _ (hex_axial_q_dir (Hex2d lo hi) b w h) (hex_axial_q_dir HAxial b w h)
| nw_q_lew b :
    Narrow lo hi w h _ _ (hex_axial_q_lew (Hex2d lo hi) b w h) (hex_axial_q_lew HAxial b w h)
| nw_q_dir_lew b :
    Narrow lo hi w h _ _ (hex_axial_q_dir_lew (Hex2d lo hi) b w h)
      (hex_axial_q_dir_lew HAxial b w h).
Arguments Narrow lo hi w h {A D}.
