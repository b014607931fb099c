(** * Properties13: hashing, default weights and shapes, panics in the construction of
    [SquareGraph] (C94 to C96), and additions to C35 and C43. *)

From Coq Require Import Permutation.
From Verif Require Import Machine Store Axes Shapes Lattice Spec SquareGraph SpecSquare More Spec9
  Demo MoreProofs MoreDemo.

(** ** C35, continued *)

(** Comparing is well defined when it does not get to the edges: some node weights differ, or
    the sizes do. *)
Theorem C35_compare_nodes_partial :
  forall (A D : Type) (s : Shape Cell A D) (G : Geometry A D) (m : mode) (N E : Type),
  Stored s G ->
  forall (g1 g2 : LatticeGraph Cell A D N E) nf1 ef1 nf2 ef2 neq eeq sq c,
  Built m s G g1 nf1 ef1 -> Built m s G g2 nf2 ef2 ->
  In c (geo_nodes G) -> neq (nf1 c) (nf2 c) = false ->
  eq_graph neq eeq sq g1 g2 = Ok false.
Proof. exact (fun A D s G m N E H => @c35_nodes A D N E m s G H). Qed.
Print Assumptions C35_compare_nodes_partial.

Theorem C35_compare_sizes_partial :
  forall (A D N E : Type) (m : mode) (s1 s2 : Shape Cell A D) (G1 G2 : Geometry A D)
    (g1 g2 : LatticeGraph Cell A D N E) nf1 ef1 nf2 ef2 neq eeq sq,
  Stored s1 G1 -> Stored s2 G2 -> Built m s1 G1 g1 nf1 ef1 -> Built m s2 G2 g2 nf2 ef2 ->
  (sh_horizontal s1, sh_vertical s1) <> (sh_horizontal s2, sh_vertical s2) ->
  eq_graph neq eeq sq g1 g2 = Ok false.
Proof. exact c35_sizes. Qed.
Print Assumptions C35_compare_sizes_partial.

(** Edge weights of a zero-sized type with its only value [x]: cloning gives the same graph, and
    comparing compares the nodes and the shapes. *)
Theorem C35_zero_sized :
  forall (A D : Type) (s : Shape Cell A D) (G : Geometry A D) (m : mode) (N E : Type),
  Stored s G ->
  forall (g1 g2 : LatticeGraph Cell A D N E) nf1 ef1 nf2 ef2 neq eeq sq x cn ce,
  Built m s G g1 nf1 ef1 -> Built m s G g2 nf2 ef2 ->
  (forall a b : E, a = b) -> (forall a, eeq a a = true) ->
  eq_graph neq eeq sq (zero_sized x g1) (zero_sized x g2)
    = Ok (forallb (fun c => neq (nf1 c) (nf2 c)) (geo_nodes G) && sq) /\
  clone_graph cn ce (zero_sized x g1) = Ok (zero_sized x g1).
Proof. exact (fun A D s G m N E H => @c35_zero_sized A D N E m s G H). Qed.
Print Assumptions C35_zero_sized.

Example C35_more_case :
  Stored sq sqG /\ Built Debug sq sqG (bare sq 0) (fun c => 0 + demo_node c) (fun _ _ => tt) /\
  Built Debug sq sqG (bare sq 5) (fun c => 5 + demo_node c) (fun _ _ => tt) /\
  let same := eq_graph Z.eqb (fun _ _ => true) true in
  same (bare sq 0) (bare sq 5) = Ok false /\
  same (zero_sized tt (bare sq 0)) (zero_sized tt (bare sq 0)) = Ok true /\
  same (zero_sized tt (bare sq 0)) (zero_sized tt (bare sq 5)) = Ok false.
Proof.
  split; [apply st_supported, sq_ok|]. split; [apply bare_built, st_supported, sq_ok|].
  split; [apply bare_built, st_supported, sq_ok|]. vm_compute. auto.
Qed.

(** ** C94 *)

(** Hashing a graph that has a cell reads memory that was never written. *)
Theorem C94_hash_refuted :
  forall (A D : Type) (s : Shape Cell A D) (G : Geometry A D) (m : mode) (N E : Type),
  Stored s G ->
  forall (g : LatticeGraph Cell A D N E) nf ef T hz (hn : N -> list T) (he : E -> list T) hs c,
  Built m s G g nf ef -> In c (geo_nodes G) -> hash_graph hz hn he hs g = Fail FUB.
Proof. exact (fun A D s G m N E H => @c94_hash A D N E m s G H). Qed.
Print Assumptions C94_hash_refuted.

(** With zero-sized edge weights it is well defined, and graphs that are equal hash alike if
    nodes that are equal do.  Missing from the property: other edge weights. *)
Theorem C94_zero_sized_partial :
  forall (A D : Type) (s : Shape Cell A D) (G : Geometry A D) (m : mode) (N E : Type),
  Stored s G ->
  forall (g1 g2 : LatticeGraph Cell A D N E) nf1 ef1 nf2 ef2 neq eeq x T hz
    (hn : N -> list T) (he : E -> list T) hs,
  Built m s G g1 nf1 ef1 -> Built m s G g2 nf2 ef2 ->
  (forall a b : E, a = b) -> (forall a, eeq a a = true) ->
  (forall a b, neq a b = true -> hn a = hn b) ->
  exists l, hash_graph hz hn he hs (zero_sized x g1) = Ok l /\
    (eq_graph neq eeq true (zero_sized x g1) (zero_sized x g2) = Ok true ->
     hash_graph hz hn he hs (zero_sized x g2) = Ok l).
Proof. exact (fun A D s G m N E H => @c94_zero_sized A D N E m s G H). Qed.
Print Assumptions C94_zero_sized_partial.

Example C94_case :
  Stored sq sqG /\ Built Debug sq sqG (demo sq Debug) demo_node (demo_edge sq) /\
  In (2, 1) (geo_nodes sqG) /\
  let z := fun k : Z => [k] in
  hash_graph z z z [] (demo sq Debug) = Fail FUB /\
  hash_graph z z (fun _ => []) [7] (zero_sized tt (bare sq 0))
    = Ok [2; 3; 2; 6; 0; 1; 10; 11; 20; 21; 2; 2; 3; 2; 6; 2; 3; 2; 6; 7].
Proof.
  split; [apply st_supported, sq_ok|]. split; [apply demo_stored, st_supported, sq_ok|].
  split; [vm_compute; tauto|]. vm_compute. auto.
Qed.

(** ** C95 *)

(** [new] gives every node and every edge the default weight, and so does [new_s] with the
    default shape. *)
Theorem C95_new :
  forall (A D N E : Type) (m : mode) (s : Shape Cell A D) (G : Geometry A D), Stored s G ->
  forall (dn : N) (de : E),
  exists g, new_default m s dn de = Ok g /\ new_s m s dn de = Ok g /\
    Built m s G g (fun _ => dn) (fun _ _ => de) /\
    (forall c, In c (geo_nodes G) -> node_weight m g c = Ok (Some dn)) /\
    (forall c a, edge_exists G c a -> edge_weight m g (c, a) = Ok (Some de)).
Proof. exact c95_new. Qed.
Print Assumptions C95_new.

(** The default of [SquareShape] is the board without nodes: the closures are not called. *)
Theorem C95_default_shape :
  forall (N E : Type) (m : mode) St (n : St -> Cell -> N * St)
    (e : St -> Cell -> SquareAxis -> E * St) st,
  exists g, new_with_s square_default n e m st = Ok (g, st) /\
    node_count m g = Ok 0 /\
    Drains (node_indices_next m (g_s g)) (node_identifiers g) [] /\
    Drains (edge_references_next m g) (edge_references g) [].
Proof. exact c95_default. Qed.
Print Assumptions C95_default_shape.

Theorem C95_directed_default_shape :
  forall (N E : Type) (m : mode) St (n : St -> Cell -> N * St)
    (e : St -> Cell -> DirectedSquareAxis -> E * St) st,
  exists g, new_with_s square_dir_default n e m st = Ok (g, st) /\
    node_count m g = Ok 0 /\
    Drains (node_indices_next m (g_s g)) (node_identifiers g) [] /\
    Drains (edge_references_next m g) (edge_references g) [].
Proof. exact c95_dir_default. Qed.
Print Assumptions C95_directed_default_shape.

Example C95_case :
  Stored hx hxG /\
  match new_default Debug hx 4 9 with
  | Ok g => node_weight Debug g (2, 2) = Ok (Some 4) /\
      edge_weight Debug g ((0, 1), AE) = Ok (Some 9)
  | Fail _ => False
  end /\
  match new_s Debug square_default 4 9 with
  | Ok g => node_weight Debug g (0, 0) = Ok None
  | Fail _ => False
  end.
Proof. split; [apply st_supported, hx_ok|]. vm_compute. auto. Qed.

(** ** C96 *)

(** [made] (Spec9.v): the weights that the closures made before the first panic.  All of them
    are dropped, each once; nothing else is. *)
Theorem C96_panic :
  forall (N E : Type) (ix : IxType) (S : LoopShape) (St : Type)
    (fn : St -> NodeIndex -> option N * St) (fe : St -> NodeIndex -> SqAxis -> option E * St)
    (m : mode) (h v : Z) (st : St), sq_size S h v ->
  match until_panic fn fe (sq_calls S h v) st with
  | (true, st') => exists g : SquareGraph N E ix S,
      sg_new_with_p m h v (node_fun fn) (edge_fun fe) st = Ok (inl (g, st'))
  | (false, st') => exists dropped,
      sg_new_with_p (ix := ix) (S := S) m h v (node_fun fn) (edge_fun fe) st
        = Ok (inr (dropped, st')) /\
      Permutation dropped (made fn fe (sq_calls S h v) st)
  end.
Proof. exact (@c96). Qed.
Print Assumptions C96_panic.

(** With closures that do not panic this is [new_with], of which C40 speaks. *)
Theorem C96_no_panic :
  forall (N E : Type) (ix : IxType) (S : LoopShape) (St : Type) (m : mode) (h v : Z)
    (fn : St -> Z -> Z -> N * St) (fe : St -> Z -> Z -> SqAxis -> E * St) st,
  sg_new_with_p (ix := ix) (S := S) m h v (fun st x y => (Some (fst (fn st x y)), snd (fn st x y)))
    (fun st x y a => (Some (fst (fe st x y a)), snd (fe st x y a))) st
  = match sg_new_with m h v fn fe st with Ok r => Ok (inl r) | Fail f => Fail f end.
Proof. exact sg_new_with_p_total. Qed.
Print Assumptions C96_no_panic.

(** The closures count their calls; the edge closure panics at the ninth call of all, its third:
    two horizontal edges and six nodes are dropped. *)
Example C96_case :
  let fn := fun (k : Z) (_ : NodeIndex) => (Some k, k + 1) in
  let fe := fun (k : Z) (_ : NodeIndex) (_ : SqAxis) => (if k =? 8 then None else Some k, k + 1) in
  sq_size DefaultShape 3 2 /\
  until_panic fn fe (sq_calls DefaultShape 3 2) 0 = (false, 9) /\
  sg_new_with_p (ix := IxU32) (S := DefaultShape) Debug 3 2 (node_fun fn) (edge_fun fe) 0
  = Ok (inr ([EdgeWeight 6; EdgeWeight 7; NodeWeight 0; NodeWeight 1; NodeWeight 2;
              NodeWeight 3; NodeWeight 4; NodeWeight 5], 9)).
Proof. cbv zeta. split; [vm_compute; repeat split; discriminate|]. split; vm_compute; reflexivity. Qed.

(** ** C43, continued *)

(** [count] of a partly used [node_references] is the number of nodes left. *)
Theorem C43_count :
  forall (N E : Type) (ix : IxType) (S : LoopShape) (m : mode) (h v : Z),
  sq_size S h v -> sq_index_fits ix h v ->
  forall (g : SquareGraph N E ix S) nf ef, SqBuilt m h v g nf ef ->
  forall l it, Consumed (sg_node_references_next (ix := ix) m) (sg_node_references g) l it ->
  sg_node_references_count it = h * v - Z.of_nat (length l).
Proof. exact c43_count. Qed.
Print Assumptions C43_count.
