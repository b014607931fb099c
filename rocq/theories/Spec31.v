(** * Spec31: colourings of nodes. *)

From Verif Require Import Machine.

Section Colours.
  Context {C : Type} (J : C -> C -> Prop) (nodes : list C).

  (** [k] colours [0], ..., [k - 1], different ones for two nodes that are joined. *)
  Definition Proper_colours (color : C -> Z) (k : Z) : Prop :=
    (forall c, In c nodes -> 0 <= color c < k) /\
    (forall a b, In a nodes -> In b nodes -> a <> b -> J a b -> color a <> color b).

  (** No node could have had an earlier colour: each of these is that of a node it is joined to. *)
  Definition First_fit (color : C -> Z) : Prop :=
    forall c z, In c nodes -> 0 <= z < color c ->
    exists b, In b nodes /\ J c b /\ color b = z.

  (** The last colour is in use. *)
  Definition Last_used (color : C -> Z) (k : Z) : Prop :=
    exists c, In c nodes /\ color c = k - 1.
End Colours.
