(** * RepoTests: the repository's own unit tests, run on the model.

    Each example is one test function of /repo; the expected values are the ones written there.
    They tie the model to the behaviour that the authors recorded; they are tests, and no
    property theorem rests on them.  (The two A* tests are in [Properties7.v].)  The tests are
    built with debug assertions, so the mode is [Debug]. *)

From Verif Require Import Machine Store Axes Shapes Lattice SquareGraph Spec SpecSquare Demo
  SquareDemo.

Definition oks {X} (l : list (outcome X)) : outcome (list X) :=
  fold_right (fun o r => let! x := o in let! l := r in Ok (x :: l)) (Ok []) l.

Section Lattice.
  Context {A D N E : Type} (g : LatticeGraph Cell A D N E).
  Definition t_neighbors (c : Cell) := collect (neighbors_next Debug g c) 20 (neighbors g c).
  Definition t_edges {X} (f : EdgeReference Cell E D -> X) (c : Cell) : outcome (list X) :=
    let! it := edges Debug g c in
    let! l := collect (edges_next Debug g) 20 it in Ok (map f l).
  Definition t_nodes := collect (node_indices_next Debug (g_s g)) 100 (node_identifiers g).
  (** [for (i, x) in node_identifiers().enumerate()]: [to_index] and back. *)
  Definition t_indices : outcome (list Z * list Cell) :=
    let! l := t_nodes in
    let! is := oks (map (to_index Debug g) l) in
    let! cs := oks (map (from_index Debug g) is) in Ok (is, cs).
End Lattice.

Definition built {A D N E} (s : Shape Cell A D) (n : Cell -> N) (e : Cell -> A -> E)
  : LatticeGraph Cell A D N E :=
  match new_with s (fun st c => (n c, st)) (fun st c a => (e c a, st)) Debug tt with
  | Ok (g, _) => g
  | Fail _ => mkGraph (mkArray2 0 0 []) [] s
  end.

(** ** src/lattice_abstract/square.rs *)

Definition t_weight (c : Cell) : Z := fst c + 2 * snd c.

(** square.rs:615-650 *)
Example square_gen_test :
  let sq := built (square_shape 4 3) t_weight (fun c _ => t_weight c) in
  (sh_horizontal (g_s sq), sh_vertical (g_s sq)) = (4, 3) /\
  map (node_weight Debug sq) [(0, 0); (0, 1); (1, 0); (2, 0); (3, 0); (4, 0); (0, 2); (0, 3)]
  = [Ok (Some 0); Ok (Some 2); Ok (Some 1); Ok (Some 2); Ok (Some 3); Ok None; Ok (Some 4); Ok None] /\
  map (edge_weight Debug sq) [((0, 0), SX); ((0, 2), SX); ((0, 2), SY); ((3, 0), SX); ((3, 0), SY)]
  = [Ok (Some 0); Ok (Some 4); Ok None; Ok None; Ok (Some 3)].
Proof. vm_compute. auto. Qed.

(** square.rs:651-674 *)
Example square_node_identifiers :
  let sq := built (square_shape 4 3) t_weight (fun c _ => Some (t_weight c)) in
  let l := list_prod [0; 1; 2; 3] [0; 1; 2] in
  t_nodes sq = Ok l /\ t_indices sq = Ok (map Z.of_nat (List.seq 0 12), l).
Proof. vm_compute. auto. Qed.

(** square.rs:676-705 *)
Example square_neighbors :
  let sq := built (square_shape 3 5) t_weight (fun c _ => Some (t_weight c)) in
  map (t_neighbors sq) [(0, 0); (0, 4); (2, 0); (2, 4); (1, 2)]
  = [Ok [(1, 0); (0, 1)]; Ok [(1, 4); (0, 3)]; Ok [(2, 1); (1, 0)]; Ok [(1, 4); (2, 3)];
     Ok [(2, 2); (1, 3); (0, 2); (1, 1)]].
Proof. vm_compute. auto. Qed.

(** square.rs:707-738 *)
Example square_edges :
  let sq := built (square_shape 3 5) t_weight (fun c _ => t_weight c) in
  t_edges sq er_target (0, 0) = Ok [(1, 0); (0, 1)] /\
  t_edges sq er_weight (0, 0) = Ok [0; 0] /\
  t_edges sq er_weight (1, 1) = Ok [3; 3; 2; 1] /\
  t_edges sq er_target (1, 2) = Ok [(2, 2); (1, 3); (0, 2); (1, 1)].
Proof. vm_compute. auto. Qed.

(** ** src/hex *)

(** The boards of the hex tests: the weight of a node is its coordinate, that of an edge the
    pair of its node and its axis. *)
Definition own {A D} (s : Shape Cell A D) : LatticeGraph Cell A D Cell (Cell * A) :=
  built s (fun c => c) (fun c a => (c, a)).
(** [for i in 0..node_count()]: the weight of [from_index(i)] is [from_index(i)]. *)
Definition own_weights {A D} (s : Shape Cell A D) : outcome bool :=
  let! count := node_count Debug (own s) in
  let! l := oks (map (fun i =>
    let! x := from_index Debug (own s) i in
    let! w := node_weight Debug (own s) x in
    Ok (match w with Some c => pair_eqb c x | None => false end)) (zrange count)) in
  Ok (forallb (fun b => b) l && (count =? Z.of_nat (length l))).

(** offset_based/mod.rs:56-63 [gen_oddr], 146-157 [gen_oddr_di]; axial_based/mod.rs:97-114
    [gen_oddr], [gen_evenq]; hex2d.rs:126-134 [gen_oddr]. *)
Example hex_gen :
  own_weights (hex_offset_r OddR 5 5) = Ok true /\
  own_weights (hex_offset_r_dir OddR 5 3) = Ok true /\
  own_weights (hex_axial_r HAxial OddR 5 5) = Ok true /\
  own_weights (hex_axial_q HAxial EvenQ 5 5) = Ok true /\
  own_weights (hex_axial_r (Hex2d (- 2 ^ 31) (2 ^ 31 - 1)) OddR 5 5) = Ok true.
Proof. vm_compute. auto. Qed.

(** offset_based/mod.rs:65-92 [neighbors_oddr] *)
Example offset_neighbors :
  map (t_neighbors (own (hex_offset_r OddR 5 5))) [(0, 0); (4, 0); (1, 1); (1, 2)]
  = [Ok [(0, 1); (1, 0)]; Ok [(4, 1); (3, 0); (3, 1)];
     Ok [(2, 2); (2, 1); (2, 0); (1, 0); (0, 1); (1, 2)];
     Ok [(1, 3); (2, 2); (1, 1); (0, 1); (0, 2); (0, 3)]].
Proof. vm_compute. auto. Qed.

(** offset_based/mod.rs:94-107 [edges_oddr] *)
Example offset_edges :
  map (t_edges (own (hex_offset_r OddR 5 5)) er_direction) [(0, 0); (4, 0); (1, 1); (1, 2)]
  = [Ok [RNE; RE]; Ok [RNE; RW; RNW]; Ok [RNE; RE; RSE; RSW; RW; RNW];
     Ok [RNE; RE; RSE; RSW; RW; RNW]].
Proof. vm_compute. auto. Qed.

(** offset_based/mod.rs:109-144 [neighbors_oddr_lew] *)
Example offset_neighbors_lew :
  map (t_neighbors (own (hex_offset_r_lew OddR 5 5))) [(0, 0); (4, 0); (1, 1); (1, 2)]
  = [Ok [(0, 1); (1, 0); (4, 0); (4, 1)]; Ok [(4, 1); (0, 0); (3, 0); (3, 1)];
     Ok [(2, 2); (2, 1); (2, 0); (1, 0); (0, 1); (1, 2)];
     Ok [(1, 3); (2, 2); (1, 1); (0, 1); (0, 2); (0, 3)]].
Proof. vm_compute. auto. Qed.

(** offset_based/mod.rs:159-174 [edges_oddr_dir] *)
Example offset_edges_dir :
  let g := own (hex_offset_r_dir OddR 5 5) in
  (exists l, t_edges g er_source (0, 0) = Ok l /\ Forall (eq (0, 0)) l) /\
  (exists l, t_edges g er_source (1, 1) = Ok l /\ Forall (eq (1, 1)) l).
Proof. split; eexists; (split; [vm_compute; reflexivity|]); repeat constructor. Qed.

(** axial_based/mod.rs:116-142 [neighbors_oddr] and hex2d.rs:136-167: the same values. *)
Example axial_neighbors :
  let expected := [Ok [(0, 1); (1, 0)]; Ok [(4, 1); (3, 0); (3, 1)];
     Ok [(1, 2); (2, 1); (2, 0); (1, 0); (0, 1); (0, 2)];
     Ok [(1, 3); (2, 2); (2, 1); (1, 1); (0, 2); (0, 3)]] in
  map (t_neighbors (own (hex_axial_r HAxial OddR 5 5))) [(0, 0); (4, 0); (1, 1); (1, 2)]
  = expected /\
  map (t_neighbors (own (hex_axial_r (Hex2d (- 2 ^ 31) (2 ^ 31 - 1)) OddR 5 5)))
    [(0, 0); (4, 0); (1, 1); (1, 2)] = expected.
Proof. vm_compute. auto. Qed.

(** axial_based/mod.rs:144-181 [neighbors_oddr_lew] *)
Example axial_neighbors_lew :
  map (t_neighbors (own (hex_axial_r_lew HAxial OddR 5 5))) [(0, 0); (4, 0); (1, 1); (1, 2)]
  = [Ok [(0, 1); (1, 0); (4, 0); (4, 1)]; Ok [(4, 1); (0, 0); (3, 0); (3, 1)];
     Ok [(1, 2); (2, 1); (2, 0); (1, 0); (0, 1); (0, 2)];
     Ok [(1, 3); (2, 2); (2, 1); (1, 1); (0, 2); (0, 3)]].
Proof. vm_compute. auto. Qed.

(** The example in the documentation of [assume_init], mod.rs:139-154: the nodes are written
    one by one ([E = ()], whose values need no memory). *)
Example uninit_doc :
  let s := hex_axial_r HAxial OddR 5 5 in
  let write g (o : Offset) :=
    let! c := sh_offset_to_coordinate s Debug o in
    let! r := node_weight_mut Debug g c (fun _ => Some (fst o + snd o)) in
    match r with Some g => Ok g | None => Fail FPanic end in
  (let! g : LatticeGraph Cell AxisR AxisDR Z unit := new_uninit Debug s in
   let! g := fold_outcome write (list_prod (zrange 5) (zrange 5)) g in
   let g := assume_init g in
   oks [node_weight Debug g (0, 0); node_weight Debug g (3, 2); node_weight Debug g (2, 4);
        node_weight Debug g (-1, 1)])
  = Ok [Some 0; Some 6; Some 8; None].
Proof. vm_compute. reflexivity. Qed.

(** ** src/square/tests.rs *)

Definition s_weight (x y : Z) : Z := x + 2 * y.
Definition s_edge (x y : Z) (a : SqAxis) : Z :=
  s_weight x y * match a with Horizontal => 1 | Vertical => -1 end.
Definition sbuilt (S : LoopShape) (h v : Z) : SquareGraph Z Z IxU32 S :=
  match sg_new_with Debug h v (fun u x y => (s_weight x y, u))
          (fun u x y a => (s_edge x y a, u)) tt with
  | Ok (g, _) => g
  | Fail _ => mkSquare (mkArray2 0 0 []) (mkArray2 0 0 []) (mkArray2 0 0 [])
  end.

Section Square.
  Context {S : LoopShape} (g : SquareGraph Z Z IxU32 S).
  Definition s_neighbors (n : NodeIndex) :=
    collect (sg_neighbors_next (ix := IxU32) (S := S) Debug) 20 (sg_neighbors g n).
  Definition s_targets (n : NodeIndex) : outcome (list NodeIndex) :=
    let! l := collect (sg_edges_next Debug g) 20 (sg_edges g n) in
    oks (map (sr_target (ix := IxU32) (S := S) Debug) l).
  Definition s_weights (n : NodeIndex) : outcome (list Z) :=
    let! l := collect (sg_edges_next Debug g) 20 (sg_edges g n) in Ok (map (fun e => sr_weight e) l).
  (** The indices of the nodes that hold the listed edges of one axis. *)
  Definition s_references (f : SqAxis -> bool) : outcome (list Z) :=
    let! l := collect (sg_edge_references_next Debug g) 100 (sg_edge_references g) in
    oks (map (fun e => sg_to_index Debug g (fst (sr_id e))) (filter (fun e => f (snd (sr_id e))) l)).
  (** The answers common to the four [gen] tests. *)
  Definition s_sizes :=
    (horizontal_node_count g, vertical_node_count g,
     map (sg_node_weight g) [(0, 0); (3, 0); (4, 0); (0, 2); (0, 3)]).
  Definition s_edge_weights := map (sg_edge_weight g)
    [((0, 0), Horizontal); ((0, 2), Horizontal); ((0, 2), Vertical); ((3, 0), Horizontal);
     ((3, 1), Horizontal); ((3, 0), Vertical)].
End Square.

Definition is_h (a : SqAxis) : bool := match a with Horizontal => true | Vertical => false end.
Fixpoint increasing (l : list Z) : bool :=
  match l with
  | x :: (y :: _) as l' => (x <? y) && increasing l'
  | _ => true
  end.

(** tests.rs:4-36, 38-74, 76-115, 117-156 [gen], [gen_loop_h], [gen_loop_v], [gen_loop_hv] *)
Example sq_gen :
  let sizes := (4, 3, [Some 0; Some 3; None; Some 4; None]) in
  s_sizes (sbuilt DefaultShape 4 3) = sizes /\ s_sizes (sbuilt HorizontalLoop 4 3) = sizes /\
  s_sizes (sbuilt VerticalLoop 4 3) = sizes /\ s_sizes (sbuilt HVLoop 4 3) = sizes /\
  s_edge_weights (sbuilt DefaultShape 4 3) = [Some 0; Some 4; None; None; None; Some (-3)] /\
  s_edge_weights (sbuilt HorizontalLoop 4 3) = [Some 0; Some 4; None; Some 3; Some 5; Some (-3)] /\
  s_edge_weights (sbuilt VerticalLoop 4 3) = [Some 0; Some 4; Some (-4); None; None; Some (-3)] /\
  s_edge_weights (sbuilt HVLoop 4 3) = [Some 0; Some 4; Some (-4); Some 3; Some 5; Some (-3)].
Proof. vm_compute. auto 10. Qed.

(** tests.rs:158-171 *)
Example sq_node_identifiers :
  let g := sbuilt DefaultShape 3 5 in
  exists l, collect (sg_node_indices_next (ix := IxU32) Debug) 100 (sg_node_identifiers g) = Ok l /\
  length l = 15%nat /\ oks (map (sg_to_index Debug g) l) = Ok (map Z.of_nat (List.seq 0 15)) /\
  oks (map (sg_from_index g) (map Z.of_nat (List.seq 0 15))) = Ok l.
Proof. eexists. split; [vm_compute; reflexivity|]. vm_compute. auto. Qed.

(** tests.rs:173-221 [neighbors], [neighbors_hv] *)
Example sq_neighbors :
  map (s_neighbors (sbuilt DefaultShape 3 5)) [(0, 0); (0, 4); (2, 0); (2, 4); (1, 2)]
  = [Ok [(1, 0); (0, 1)]; Ok [(1, 4); (0, 3)]; Ok [(1, 0); (2, 1)]; Ok [(1, 4); (2, 3)];
     Ok [(0, 2); (2, 2); (1, 1); (1, 3)]] /\
  map (s_neighbors (sbuilt HVLoop 3 5)) [(0, 0); (0, 4); (2, 0); (2, 4); (1, 2)]
  = [Ok [(2, 0); (1, 0); (0, 4); (0, 1)]; Ok [(2, 4); (1, 4); (0, 3); (0, 0)];
     Ok [(1, 0); (0, 0); (2, 4); (2, 1)]; Ok [(1, 4); (0, 4); (2, 3); (2, 0)];
     Ok [(0, 2); (2, 2); (1, 1); (1, 3)]].
Proof. vm_compute. auto. Qed.

(** tests.rs:223-277 [edges], [edges_hv] *)
Example sq_edges_test :
  (let g := sbuilt DefaultShape 3 5 in
   s_targets g (0, 0) = Ok [(1, 0); (0, 1)] /\ s_weights g (0, 0) = Ok [0; 0] /\
   s_weights g (1, 1) = Ok [2; 3; -1; -3] /\
   s_targets g (1, 2) = Ok [(0, 2); (2, 2); (1, 1); (1, 3)]) /\
  (let g := sbuilt HVLoop 3 5 in
   s_targets g (0, 0) = Ok [(2, 0); (1, 0); (0, 4); (0, 1)] /\
   s_weights g (0, 0) = Ok [2; 0; -8; 0] /\ s_weights g (1, 1) = Ok [2; 3; -1; -3] /\
   s_targets g (1, 2) = Ok [(0, 2); (2, 2); (1, 1); (1, 3)]).
Proof. vm_compute. auto 10. Qed.

(** tests.rs:279-345 [edge_references], [edge_references_hv]: increasing, and so many. *)
Example sq_edge_references :
  let counts S := 
    let g := sbuilt S 3 5 in
    let! h := s_references g is_h in
    let! v := s_references g (fun a => negb (is_h a)) in
    Ok (increasing h, length h, increasing v, length v) in
  counts DefaultShape = Ok (true, 10%nat, true, 12%nat) /\
  counts HVLoop = Ok (true, 15%nat, true, 15%nat).
Proof. vm_compute. auto. Qed.
