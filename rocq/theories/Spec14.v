(** * Spec14: ways along a list of priced edges, and what a table of all of them says. *)

From Verif Require Import Machine.

Section Ways.
  Context {C : Type}.

  (** [Way es a k b]: edges of [es], one after the other, lead from [a] to [b] and cost [k]
      together. *)
  Inductive Way (es : list (C * C * Z)) : C -> Z -> C -> Prop :=
  | way_here c : Way es c 0 c
  | way_step a b w k c : In (a, b, w) es -> Way es b k c -> Way es a (w + k) c.

  (** Edges that can be taken both ways. *)
  Definition both_ways (es : list (C * C * Z)) : list (C * C * Z) :=
    es ++ map (fun e => (snd (fst e), fst (fst e), snd e)) es.

  (** What [k] says of getting from [a] to [b] where no price above [hi] can be written: below
      [hi] it is the least price; [hi] says that there is no way, or none below [hi]. *)
  Definition PriceUpTo (hi : Z) (es : list (C * C * Z)) (a b : C) (k : Z) : Prop :=
    k <= hi /\ (k < hi -> Way es a k b) /\ forall k', Way es a k' b -> k <= k'.

  (** A table of all prices between [nodes]; nothing else is in it. *)
  Definition AllPrices (hi : Z) (es : list (C * C * Z)) (nodes : list C)
      (r : C * C -> option Z) : Prop :=
    forall a b,
      match r (a, b) with
      | Some k => In a nodes /\ In b nodes /\ PriceUpTo hi es a b k
      | None => ~ (In a nodes /\ In b nodes)
      end.
End Ways.

(** The price of an edge is a function of its weight. *)
Definition priced {C E : Type} (price : E -> Z) (es : list (C * C * E)) : list (C * C * Z) :=
  map (fun e => (fst e, price (snd e))) es.

(** Which ways the edges of a graph can be taken. *)
Definition ways_of {C : Type} (directed : bool) (es : list (C * C * Z)) : list (C * C * Z) :=
  if directed then es else both_ways es.

(** No two edges from the same node to the same node differ in price. *)
Definition OnePrice {C : Type} (es : list (C * C * Z)) : Prop :=
  forall a b w w', In (a, b, w) es -> In (a, b, w') es -> w = w'.
