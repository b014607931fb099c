(** * Properties18: pairs of numbers and node ids (C101). *)

From Verif Require Import Machine Store Axes Shapes SquareGraph Convert SpecSquare SquareDemo
  ConvertProofs.

(** ** C101 *)

(** [Offset] and [SquareOffset] keep the pair; [horizontal] and [vertical] of [Offset] read it. *)
Theorem C101_offset_partial :
  (forall p, offset_to_pair (offset_of_pair p) = p) /\
  (forall x, offset_of_pair (offset_to_pair x) = x) /\
  (forall p, o_horizontal (offset_of_pair p) = fst p /\ o_vertical (offset_of_pair p) = snd p) /\
  (forall o p, so_eq_pair o p = true <-> o = so_of_pair p) /\
  (forall p q, so_eq_pair (so_of_pair p) q = true <-> p = q).
Proof. exact c101_offset. Qed.
Print Assumptions C101_offset_partial.

(** [NodeIndex<Ix>] keeps the pair just if both numbers are numbers of [Ix]. *)
Theorem C101_index_partial :
  forall ix : IxType,
  let holds (p : Z * Z) := 0 <= fst p < ix_size ix /\ 0 <= snd p < ix_size ix in
  (forall n, holds n -> ni_of_pair ix (ni_to_pair n) = n) /\
  (forall n p, ni_eq_pair n p = true <-> ni_to_pair n = p) /\
  (forall p, holds p <-> ni_eq_pair (ni_of_pair ix p) p = true) /\
  (forall p, holds p <-> ni_to_pair (ni_of_pair ix p) = p).
Proof. exact c101_index. Qed.
Print Assumptions C101_index_partial.

(** What is found with a pair is the weight of the node at the remainders. *)
Theorem C101_weight_partial :
  forall (N E : Type) (ix : IxType) (S : LoopShape) (m : mode) (h v : Z), sq_size S h v ->
  forall (g : SquareGraph N E ix S) nf ef, SqBuilt m h v g nf ef ->
  forall p n, on_board h v n -> fst p mod ix_size ix = fst n -> snd p mod ix_size ix = snd n ->
  sg_node_weight g (ni_of_pair ix p) = Some (nf n).
Proof. exact (@c101_weight). Qed.
Print Assumptions C101_weight_partial.

(** So with an index type narrower than [usize], every node of every board is found with a pair
    that is outside of the board. *)
Theorem C101_refuted :
  forall (N E : Type) (ix : IxType) (S : LoopShape) (m : mode) (h v : Z), sq_size S h v ->
  ix <> IxUsize -> sq_index_fits ix h v -> 1 <= v ->
  forall (g : SquareGraph N E ix S) nf ef, SqBuilt m h v g nf ef ->
  forall n, on_board h v n -> exists p,
    0 <= fst p < 2 ^ 64 /\ 0 <= snd p < 2 ^ 64 /\ ~ on_board h v p /\
    sg_node_weight g (ni_of_pair ix p) = Some (nf n).
Proof. exact (@c101_wrong). Qed.
Print Assumptions C101_refuted.

Example C101_case :
  so_eq_pair (so_of_pair (3, 4)) (3, 4) = true /\ so_eq_pair (so_of_pair (3, 4)) (4, 3) = false /\
  ni_eq_pair (ni_of_pair IxU8 (3, 4)) (3, 4) = true /\
  ni_eq_pair (ni_of_pair IxU8 (258, 1)) (258, 1) = false /\
  sq_size HorizontalLoop 3 2 /\ sq_index_fits IxU8 3 2 /\
  SqBuilt Debug 3 2 hl sq_node sq_edge /\ on_board 3 2 (2, 1) /\ ~ on_board 3 2 (258, 1) /\
  sg_node_weight hl (ni_of_pair IxU8 (258, 1)) = Some 21.
Proof.
  repeat (split; [reflexivity|]). split; [exact hl_size|]. split; [exact hl_fits|].
  split; [exact hl_built|]. unfold on_board. cbn [fst snd]. split; [lia|]. split; [lia|].
  vm_compute. reflexivity.
Qed.
