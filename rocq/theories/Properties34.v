(** * Properties34: paths that come to no node twice (C129, C130).

    [AllSimplePaths]: what petgraph's [all_simple_paths] yields, call by call (SimplePaths.v).
    [Simple], [Joined], [ways], [ListsPaths]: Spec26.v; [nbs] is what [neighbors] drains to.
    [Sound] (Spec21.v): the shapes of the crate whose boards are traversed as drawn and those of
    users that keep to the contract. *)

From Verif Require Import CustomDemo Machine Store Axes Shapes Lattice SquareGraph Spec SpecSquare
  Spec19 Spec21 Astar SimplePaths Spec26 SimplePathsMain Demo SquareDemo.

(** ** C129 *)

(** Every path from [a] to [b] is yielded, as often as it can be gone, and nothing else is. *)
Theorem C129_paths :
  forall (A D N E : Type) (m : mode) (s : Shape Cell A D) (G : Geometry A D), Sound m s G ->
  forall (g : LatticeGraph Cell A D N E) nf ef, Built m s G g nf ef ->
  forall dec nbs,
  (forall c, In c (geo_nodes G) -> Drains (neighbors_next m g c) (neighbors g c) (nbs c)) ->
  forall a b least most, In a (geo_nodes G) -> a <> b -> 0 <= least < USIZE - 1 ->
  match most with Some k => 0 <= k < USIZE - 1 | None => True end ->
  exists l,
    AllSimplePaths veqb m (node_count m g) (fun c => neighbors_directed g c Outgoing)
      (neighbors_next m g) b a least most l /\
    ListsPaths dec nbs a b least most l.
Proof. exact (@c129_paths). Qed.
Print Assumptions C129_paths.

(** No path twice, unless some node is listed twice among the neighbours of another. *)
Theorem C129_members :
  forall (A D N E : Type) (m : mode) (s : Shape Cell A D) (G : Geometry A D), Sound m s G ->
  forall (g : LatticeGraph Cell A D N E) nf ef, Built m s G g nf ef ->
  forall nbs,
  (forall c, In c (geo_nodes G) -> Drains (neighbors_next m g c) (neighbors g c) (nbs c)) ->
  forall a b least most l, In a (geo_nodes G) -> a <> b -> 0 <= least < USIZE - 1 ->
  match most with Some k => 0 <= k < USIZE - 1 | None => True end ->
  AllSimplePaths veqb m (node_count m g) (fun c => neighbors_directed g c Outgoing)
    (neighbors_next m g) b a least most l ->
  (forall p, In p l <-> Simple a b least most p /\ Joined nbs p) /\
  ((forall c, In c (geo_nodes G) -> NoDup (nbs c)) -> NoDup l).
Proof. exact (@c129_members). Qed.
Print Assumptions C129_members.

(** From a node to itself the ways round are found; without a limit, all but those through every
    node of the board. *)
Theorem C129_round :
  forall (A D N E : Type) (m : mode) (s : Shape Cell A D) (G : Geometry A D), Sound m s G ->
  forall (g : LatticeGraph Cell A D N E) nf ef, Built m s G g nf ef ->
  forall dec nbs,
  (forall c, In c (geo_nodes G) -> Drains (neighbors_next m g c) (neighbors g c) (nbs c)) ->
  forall a least most, In a (geo_nodes G) -> 0 <= least < USIZE - 1 ->
  match most with Some k => 0 <= k < USIZE - 1 | None => True end ->
  exists l,
    AllSimplePaths veqb m (node_count m g) (fun c => neighbors_directed g c Outgoing)
      (neighbors_next m g) a a least most l /\
    ListsPaths dec nbs a a least
      (match most with
       | Some k => Some k
       | None => Some (Z.max 0 (Z.of_nat (length (geo_nodes G)) - 2))
       end) l.
Proof. exact (@c129_round). Qed.
Print Assumptions C129_round.

Example C129_case :
  let all {C It} (round : @PState C It -> outcome (@PState C It + option (list C) * @PState C It)) st :=
    loop (fun st =>
      let! r := round (fst st) in
      match r with
      | inl st' => Ok (inl (st', snd st))
      | inr (Some p, st') => Ok (inl (st', snd st ++ [p]))
      | inr (None, _) => Ok (inr (snd st))
      end) (st, []) in
  let run {A D N E} (g : LatticeGraph Cell A D N E) least most a b :=
    let! mx := path_limit Debug (node_count Debug g) most in
    let! mn := usize_add Debug least 1 in
    all (paths_round veqb (fun c => neighbors_directed g c Outgoing) (neighbors_next Debug g) b mx mn)
      (paths_init (fun c => neighbors_directed g c Outgoing) a) in
  Sound Debug sq sqG /\ Built Debug sq sqG (demo sq Debug) demo_node (demo_edge sq) /\
  In (0, 0) (geo_nodes sqG) /\
  run (demo sq Debug) 0 None (0, 0) (2, 1) =
    Ok [[(0, 0); (1, 0); (2, 0); (2, 1)]; [(0, 0); (1, 0); (1, 1); (2, 1)];
        [(0, 0); (0, 1); (1, 1); (2, 1)]; [(0, 0); (0, 1); (1, 1); (1, 0); (2, 0); (2, 1)]] /\
  run (demo sq Debug) 3 (Some 4) (0, 0) (2, 1) =
    Ok [[(0, 0); (0, 1); (1, 1); (1, 0); (2, 0); (2, 1)]] /\
  run (demo sq Debug) 0 None (0, 0) (0, 0) =
    Ok [[(0, 0); (1, 0); (1, 1); (0, 1); (0, 0)]; [(0, 0); (1, 0); (0, 0)];
        [(0, 0); (0, 1); (1, 1); (1, 0); (0, 0)]; [(0, 0); (0, 1); (0, 0)]] /\
  Sound Debug hd hdG /\ Built Debug hd hdG (demo hd Debug) demo_node (demo_edge hd) /\
  run (demo hd Debug) 0 (Some 2) (0, 0) (2, 0) =
    Ok [[(0, 0); (0, 1); (1, 1); (2, 0)]; [(0, 0); (0, 1); (1, 0); (2, 0)];
        [(0, 0); (1, 0); (1, 1); (2, 0)]; [(0, 0); (1, 0); (2, 0)]].
Proof.
  cbv zeta. split; [apply sound_crate; exact sq_ok|]. split; [apply demo_built, sq_ok|].
  split; [left; reflexivity|].
  split; [vm_compute; reflexivity|]. split; [vm_compute; reflexivity|]. split; [vm_compute; reflexivity|].
  split; [apply sound_crate; exact hd_ok|]. split; [apply demo_built, hd_ok|].
  vm_compute; reflexivity.
Qed.

(** ** C130 *)

Theorem C130_paths :
  forall (N E : Type) (ix : IxType) (S : LoopShape) (m : mode) (h v : Z),
  sq_size S h v -> sq_index_fits ix h v ->
  forall (g : SquareGraph N E ix S) nf ef, SqBuilt m h v g nf ef ->
  forall dec nbs,
  (forall c, on_board h v c ->
     Drains (sg_neighbors_next (ix := ix) (S := S) m) (sg_neighbors g c) (nbs c)) ->
  forall a b least most, on_board h v a -> a <> b -> 0 <= least < USIZE - 1 ->
  match most with Some k => 0 <= k < USIZE - 1 | None => True end ->
  exists l,
    AllSimplePaths veqb m (Ok (sg_node_count g)) (sg_neighbors g)
      (fun _ => sg_neighbors_next (ix := ix) (S := S) m) b a least most l /\
    ListsPaths dec nbs a b least most l.
Proof. exact (@c130_paths). Qed.
Print Assumptions C130_paths.

Theorem C130_members :
  forall (N E : Type) (ix : IxType) (S : LoopShape) (m : mode) (h v : Z),
  sq_size S h v -> sq_index_fits ix h v ->
  forall (g : SquareGraph N E ix S) nf ef, SqBuilt m h v g nf ef ->
  forall nbs,
  (forall c, on_board h v c ->
     Drains (sg_neighbors_next (ix := ix) (S := S) m) (sg_neighbors g c) (nbs c)) ->
  forall a b least most l, on_board h v a -> a <> b -> 0 <= least < USIZE - 1 ->
  match most with Some k => 0 <= k < USIZE - 1 | None => True end ->
  AllSimplePaths veqb m (Ok (sg_node_count g)) (sg_neighbors g)
    (fun _ => sg_neighbors_next (ix := ix) (S := S) m) b a least most l ->
  (forall p, In p l <-> Simple a b least most p /\ Joined nbs p) /\
  ((forall c, on_board h v c -> NoDup (nbs c)) -> NoDup l).
Proof. exact (@c130_members). Qed.
Print Assumptions C130_members.

Theorem C130_round :
  forall (N E : Type) (ix : IxType) (S : LoopShape) (m : mode) (h v : Z),
  sq_size S h v -> sq_index_fits ix h v ->
  forall (g : SquareGraph N E ix S) nf ef, SqBuilt m h v g nf ef ->
  forall dec nbs,
  (forall c, on_board h v c ->
     Drains (sg_neighbors_next (ix := ix) (S := S) m) (sg_neighbors g c) (nbs c)) ->
  forall a least most, on_board h v a -> 0 <= least < USIZE - 1 ->
  match most with Some k => 0 <= k < USIZE - 1 | None => True end ->
  exists l,
    AllSimplePaths veqb m (Ok (sg_node_count g)) (sg_neighbors g)
      (fun _ => sg_neighbors_next (ix := ix) (S := S) m) a a least most l /\
    ListsPaths dec nbs a a least
      (match most with Some k => Some k | None => Some (Z.max 0 (h * v - 2)) end) l.
Proof. exact (@c130_round). Qed.
Print Assumptions C130_round.

(** On the second board the two nodes are joined by two edges. *)
Example C130_case :
  let all {C It} (round : @PState C It -> outcome (@PState C It + option (list C) * @PState C It)) st :=
    loop (fun st =>
      let! r := round (fst st) in
      match r with
      | inl st' => Ok (inl (st', snd st))
      | inr (Some p, st') => Ok (inl (st', snd st ++ [p]))
      | inr (None, _) => Ok (inr (snd st))
      end) (st, []) in
  let run g least most a b :=
    let! mx := path_limit Debug (Ok (sg_node_count g)) most in
    let! mn := usize_add Debug least 1 in
    all (paths_round veqb (sg_neighbors g)
      (fun _ => sg_neighbors_next (ix := IxU8) (S := HorizontalLoop) Debug) b mx mn)
      (paths_init (sg_neighbors g) a) in
  sq_size HorizontalLoop 3 2 /\ sq_index_fits IxU8 3 2 /\ SqBuilt Debug 3 2 hl sq_node sq_edge /\
  on_board 3 2 (0, 0) /\
  run hl 0 (Some 2) (0, 0) (2, 0) =
    Ok [[(0, 0); (2, 0)]; [(0, 0); (1, 0); (2, 0)]; [(0, 0); (0, 1); (2, 1); (2, 0)]] /\
  run hl 2 (Some 2) (0, 0) (2, 1) =
    Ok [[(0, 0); (1, 0); (2, 0); (2, 1)]; [(0, 0); (1, 0); (1, 1); (2, 1)];
        [(0, 0); (0, 1); (1, 1); (2, 1)]] /\
  run (sqd IxU8 HorizontalLoop Debug 2 1) 0 None (0, 0) (1, 0) =
    Ok [[(0, 0); (1, 0)]; [(0, 0); (1, 0)]].
Proof.
  cbv zeta. split; [apply hl_size|]. split; [apply hl_fits|]. split; [apply hl_built|].
  split; [split; cbn; lia|]. split; [vm_compute; reflexivity|].
  split; vm_compute; reflexivity.
Qed.
