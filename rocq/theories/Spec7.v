(** * Spec7: spanning trees. *)

From Coq Require Import Permutation.
From Verif Require Import Machine Kruskal.

Section Spanning.
  Context {X : Type}.

  (** An edge of a weighted graph: its two ends and its weight. *)
  Definition WEdge : Type := X * X * Z.
  Definition ends (es : list WEdge) : list (X * X) := map fst es.
  Definition total (es : list WEdge) : Z := fold_right Z.add 0 (map snd es).

  (** [T] is some of the edges [es]. *)
  Definition Some_of (es T : list WEdge) : Prop := exists rest, Permutation es (T ++ rest).

  (** The edges [es] connect the nodes [nodes]. *)
  Definition Connects (nodes : list X) (es : list WEdge) : Prop :=
    forall a b, In a nodes -> In b nodes -> Linked (ends es) a b.

  (** [F] links whatever nodes the edges [es] link. *)
  Definition Spans (nodes : list X) (es F : list WEdge) : Prop :=
    forall a b, In a nodes -> In b nodes -> Linked (ends es) a b -> Linked (ends F) a b.

  (** [T] is some of the edges and links as much as they do.  No other such choice has fewer
      edges; none with as few edges weighs less; and if no edge has a negative weight, none
      weighs less at all. *)
  Definition MinSpanningForest (nodes : list X) (es T : list WEdge) : Prop :=
    Some_of es T /\ Spans nodes es T /\
    forall F, Some_of es F -> Spans nodes es F ->
      (length T <= length F)%nat /\
      (length F = length T -> total T <= total F) /\
      ((forall e, In e es -> 0 <= snd e) -> total T <= total F).

  (** [reps] has one node of each connected component. *)
  Definition Components (nodes : list X) (es : list (X * X)) (reps : list X) : Prop :=
    incl reps nodes /\ NoDup reps /\
    (forall a, In a nodes -> exists b, In b reps /\ Linked es a b) /\
    (forall a b, In a reps -> In b reps -> Linked es a b -> a = b).

  (** The element [x] stands for the edge [e]: it gives the places of its ends among [nodes]. *)
  Definition Stands_for {N} (nodes : list X) (x : Element N) (e : WEdge) : Prop :=
    match x with
    | ENode _ => False
    | EEdge i j w => 0 <= i /\ 0 <= j /\ w = snd e /\
        nth_error nodes (Z.to_nat i) = Some (fst (fst e)) /\
        nth_error nodes (Z.to_nat j) = Some (snd (fst e))
    end.
End Spanning.
Arguments WEdge : clear implicits.
