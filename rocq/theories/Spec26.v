(** * Spec26: paths that come to no node twice (C129, C130). *)

From Verif Require Import Machine.

Section Paths.
  Context {C : Type} (dec : forall a b : C, {a = b} + {a <> b}) (nbs : C -> list C).

  (** Leads from [a] to [b] over [least] to [most] other nodes, to none of them twice. *)
  Definition Simple (a b : C) (least : Z) (most : option Z) (p : list C) : Prop :=
    exists mids, p = a :: mids ++ [b] /\ NoDup (a :: mids) /\ ~ In b mids /\
      least <= Z.of_nat (length mids) /\
      match most with Some k => Z.of_nat (length mids) <= k | None => True end.

  (** In how many ways it can be gone: a node may be listed more than once among the neighbours of
      another. *)
  Fixpoint ways (p : list C) : nat :=
    match p with
    | a :: ((b :: _) as q) => (count_occ dec (nbs a) b * ways q)%nat
    | _ => 1%nat
    end.

  (** Each node is among the neighbours of the one before. *)
  Fixpoint Joined (p : list C) : Prop :=
    match p with
    | a :: ((b :: _) as q) => In b (nbs a) /\ Joined q
    | _ => True
    end.

  (** The paths from [a] to [b], each as many times as it can be gone. *)
  Definition ListsPaths (a b : C) (least : Z) (most : option Z) (l : list (list C)) : Prop :=
    (forall p, In p l -> Simple a b least most p) /\
    forall p, Simple a b least most p -> count_occ (list_eq_dec dec) l p = ways p.
End Paths.
