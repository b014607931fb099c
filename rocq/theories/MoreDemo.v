(** * MoreDemo: graphs with edge weights of type [unit], for the examples. *)

From Verif Require Import Machine Store Axes Shapes Lattice Spec Main1 Demo.

Definition bare {A D} (s : Shape Cell A D) (k : Z) : LatticeGraph Cell A D Z unit :=
  match new_with s (fun st c => (k + demo_node c, st)) (fun st c a => (tt, st)) Debug tt with
  | Ok (g, _) => g
  | Fail _ => mkGraph (mkArray2 0 0 []) [] s
  end.
Lemma bare_built : forall A D (s : Shape Cell A D) G k, Stored s G ->
  Built Debug s G (bare s k) (fun c => k + demo_node c) (fun _ _ => tt).
Proof.
  intros A D s G k H. apply built_new.
  destruct (Main1.c01 (m := Debug) H (fun c => k + demo_node c) (fun _ _ => tt)) as (g & Hg & _).
  unfold bare. rewrite Hg. reflexivity.
Qed.

(** The graph [demo] with [k] added to the weights of its edges. *)
Definition tinted {A D} (s : Shape Cell A D) (k : Z) : LatticeGraph Cell A D Z Z :=
  match new_with s (fun st c => (demo_node c, st)) (fun st c a => (k + demo_edge s c a, st))
    Debug tt with
  | Ok (g, _) => g
  | Fail _ => mkGraph (mkArray2 0 0 []) [] s
  end.
Lemma tinted_built : forall A D (s : Shape Cell A D) G k, Stored s G ->
  Built Debug s G (tinted s k) demo_node (fun c a => k + demo_edge s c a).
Proof.
  intros A D s G k H. apply built_new.
  destruct (Main1.c01 (m := Debug) H demo_node (fun c a => k + demo_edge s c a)) as (g & Hg & _).
  unfold tinted. rewrite Hg. reflexivity.
Qed.
