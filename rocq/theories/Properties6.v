(** * Properties6: construction in steps (C68, C69).

    [Stored s G]: any shape of the crate on a board of allocatable size (Spec.v).
    [Filling m s G g nf ef]: [g] was made by [new_uninit] and then written to; [nf] and [ef]
    tell which weights were written, and with what (Spec.v). *)

From Verif Require Import Machine Store Axes Shapes Lattice Spec Spec2 Main1 FillProofs Demo.

(** ** C68 *)

(** Once every node and edge was written, in whatever order and however often, [assume_init]
    gives the graph that [new_with] makes of the same weights, slot by slot. *)
Theorem C68_assume_init :
  forall (A D N E : Type) (m : mode) (s : Shape Cell A D) (G : Geometry A D), Stored s G ->
  forall (g : LatticeGraph Cell A D N E) nf ef nf' ef', Filling m s G g nf ef ->
  (forall c, In c (geo_nodes G) -> nf c = Some (nf' c)) ->
  (forall c a, edge_exists G c a -> ef c a = Some (ef' c a)) ->
  new_with s (fun st c => (nf' c, st)) (fun st c a => (ef' c a, st)) m tt
  = Ok (assume_init g, tt).
Proof. exact (@c68_same). Qed.
Print Assumptions C68_assume_init.

(** No write is refused on the way, so every choice of weights can be filled in. *)
Theorem C68_writes :
  forall (A D N E : Type) (m : mode) (s : Shape Cell A D) (G : Geometry A D), Stored s G ->
  (exists g : LatticeGraph Cell A D N E, new_uninit m s = Ok g) /\
  forall (g : LatticeGraph Cell A D N E) nf ef, Filling m s G g nf ef ->
  (forall c w, In c (geo_nodes G) ->
     exists g', node_weight_mut m g c (fun _ => Some w) = Ok (Some g')) /\
  (forall c a w, edge_exists G c a ->
     exists g', edge_weight_mut m g (c, a) (fun _ => Some w) = Ok (Some g')).
Proof. intros A D N E m s G STO. split; [exact (c68_start STO)|exact (c68_progress STO)]. Qed.
Print Assumptions C68_writes.

Theorem C68_reachable :
  forall (A D N E : Type) (m : mode) (s : Shape Cell A D) (G : Geometry A D), Stored s G ->
  forall nf' ef', exists (g : LatticeGraph Cell A D N E) nf ef, Filling m s G g nf ef /\
  (forall c, In c (geo_nodes G) -> nf c = Some (nf' c)) /\
  (forall c a, edge_exists G c a -> ef c a = Some (ef' c a)).
Proof. exact (@c68_reachable). Qed.
Print Assumptions C68_reachable.

(** A board of 2 by 1 filled from its end: edge, right node, left node. *)
Example C68_case :
  let s := square_shape 2 1 in let G := square_geometry square_axes 2 1 in
  Stored s G /\
  (let! u := @new_uninit Cell _ _ Z Z Debug s in
   let! r := edge_weight_mut Debug u ((0, 0), SX) (fun _ => Some 7) in
   let! g := unwrap r in
   let! r := node_weight_mut Debug g (1, 0) (fun _ => Some 5) in
   let! g := unwrap r in
   let! r := node_weight_mut Debug g (0, 0) (fun _ => Some 4) in
   let! g := unwrap r in Ok (g_nodes (assume_init g), g_edges (assume_init g)))
  = (let! (g, _) := new_with s (fun st c => (4 + fst c, st)) (fun st c a => (7, st)) Debug tt in
     Ok (g_nodes g, g_edges g)).
Proof.
  cbv zeta. split; [apply st_supported, sup_square, fits_small; lia|]. vm_compute. reflexivity.
Qed.

(** ** C69 *)

(** The first call that panics ends the construction: the closures are called as always up to
    and including that call, never again, and no destructor of a weight runs (the weights
    made so far are leaked, none is dropped twice or dropped unwritten). *)
Theorem C69_panic :
  forall (A D N E : Type) (m : mode) (s : Shape Cell A D) (G : Geometry A D), Stored s G ->
  forall St (n : St -> Cell -> option N * St) (e : St -> Cell -> A -> option E * St) st,
  let (ok, st') := until_panic n e (spec_calls G) st in
  if ok then exists g, new_with_p s n e m st = Ok (inl (g, st'))
  else new_with_p s n e m st = Ok (inr ([], st')).
Proof. exact c69. Qed.
Print Assumptions C69_panic.

(** With closures that do not panic this is [new_with], of which C01 to C04 speak. *)
Theorem C69_no_panic :
  forall (A D N E : Type) (m : mode) (s : Shape Cell A D) (St : Type)
    (n : St -> Cell -> N * St) (e : St -> Cell -> A -> E * St) st,
  new_with_p s (fun st c => (Some (fst (n st c)), snd (n st c)))
    (fun st c a => (Some (fst (e st c a)), snd (e st c a))) m st
  = match new_with s n e m st with Ok r => Ok (inl r) | Fail f => Fail f end.
Proof. exact (@new_with_p_total). Qed.
Print Assumptions C69_no_panic.

(** The closures count their calls; the edge closure panics at the third. *)
Example C69_case :
  let n := fun (k : Z) (c : Cell) => (Some c, k + 1) in
  let e := fun (k : Z) (c : Cell) (a : SquareAxis) => (if k =? 2 then None else Some k, k + 1) in
  Stored sq sqG /\ until_panic n e (spec_calls sqG) 0 = (false, 3) /\
  new_with_p sq n e Debug 0 = Ok (inr ([], 3)).
Proof.
  cbv zeta. split; [apply st_supported, sq_ok|]. split; vm_compute; reflexivity.
Qed.
