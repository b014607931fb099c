(** * Traverse: the traversals of petgraph 0.8 (src/visit/traversal.rs), as clients of the
    graphs of this crate.

    petgraph is outside of the repository; these are its algorithms as documented and
    published, reduced to what they ask of a graph: [neighbors], [visit_map], [visit] and
    [is_visited].  Vec and VecDeque are lists (memory exhaustion is not modelled). *)

From Verif Require Import Machine.

(** [for x in it { body }] *)
Definition for_each {It X S} (next : It -> outcome (option X * It)) (it : It)
  (body : S -> X -> outcome S) (s : S) : outcome S :=
  loop (fun st : It * S =>
    let! (x, it') := next (fst st) in
    match x with
    | None => Ok (inr (snd st))
    | Some x => let! s' := body (snd st) x in Ok (inl (it', s'))
    end) (it, s).

Section Traverse.
  Context {C It VM : Type} (nb : C -> It) (nb_next : C -> It -> outcome (option C * It))
    (visit : VM -> C -> outcome (bool * VM)) (visited : VM -> C -> outcome bool).

  (** [Bfs]: the queue (front first) and the map of discovered nodes. *)
  Definition Bfs : Type := list C * VM.

  (** [Bfs::new]: the start node is discovered and queued. *)
  Definition bfs_new (fresh : VM) (start : C) : outcome Bfs :=
    let! (_, vm) := visit fresh start in Ok ([start], vm).

  (** [Bfs::next]: pop the front; push back each neighbour that was not yet discovered. *)
  Definition bfs_next (st : Bfs) : outcome (option C * Bfs) :=
    match fst st with
    | [] => Ok (None, st)
    | node :: q =>
        let! st' := for_each (nb_next node) (nb node) (fun st succ =>
          let! (new, vm) := visit (snd st) succ in
          Ok (if new then fst st ++ [succ] else fst st, vm)) (q, snd st) in
        Ok (Some node, st')
    end.

  (** [Dfs]: the stack (top first) and the map of discovered nodes. *)
  Definition Dfs : Type := list C * VM.

  (** [Dfs::new] *)
  Definition dfs_new (fresh : VM) (start : C) : Dfs := ([start], fresh).

  (** [Dfs::next]: pop until a node is newly discovered; push its undiscovered neighbours. *)
  Fixpoint dfs_pop (stack : list C) (vm : VM) : outcome (option C * Dfs) :=
    match stack with
    | [] => Ok (None, ([], vm))
    | node :: stack =>
        let! (new, vm) := visit vm node in
        if new then
          let! stack' := for_each (nb_next node) (nb node) (fun stack succ =>
            let! v := visited vm succ in
            Ok (if v then stack else succ :: stack)) stack in
          Ok (Some node, (stack', vm))
        else dfs_pop stack vm
    end.
  Definition dfs_next (st : Dfs) : outcome (option C * Dfs) := dfs_pop (fst st) (snd st).
End Traverse.
