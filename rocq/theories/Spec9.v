(** * Spec9: the weights that closures make before one of them panics. *)

From Verif Require Import Machine Spec More.

(** The weights made by a list of calls, up to the first that panics ([None]). *)
Fixpoint made {A N E St} (n : St -> Cell -> option N * St)
  (e : St -> Cell -> A -> option E * St) (calls : list (Call A)) (st : St)
  : list (Weight N E) :=
  match calls with
  | [] => []
  | CallNode c :: calls =>
      let (x, st) := n st c in
      match x with Some w => NodeWeight w :: made n e calls st | None => [] end
  | CallEdge c a :: calls =>
      let (x, st) := e st c a in
      match x with Some w => EdgeWeight w :: made n e calls st | None => [] end
  end.
