(** * Spec28: pairs of nodes (C133, C134). *)

From Verif Require Import Machine.

Section Pairs.
  Context {C : Type} (joined : C -> C -> Prop) (nodes : list C) (mate : C -> option C).

  (** Every node has one mate at most, joined to it, whose mate it is. *)
  Definition Paired : Prop := forall a b, In a nodes -> mate a = Some b ->
    In b nodes /\ a <> b /\ joined a b /\ mate b = Some a.

  (** No two nodes that are joined could be paired in addition. *)
  Definition NoneLeft : Prop := forall a b, In a nodes -> In b nodes -> a <> b -> joined a b ->
    mate a <> None \/ mate b <> None.

  (** The nodes that have a mate. *)
  Definition with_mate : list C :=
    filter (fun c => match mate c with Some _ => true | None => false end) nodes.
End Pairs.
