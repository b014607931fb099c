(** * Clients: more algorithms of petgraph 0.8 as clients of the graphs:
    [is_bipartite_undirected], [is_cyclic_undirected], [has_path_connecting] (src/algo/mod.rs)
    and [DfsPostOrder] (src/visit/traversal.rs).

    petgraph is outside of the repository; these are its algorithms as published, reduced to
    what they ask of a graph: [neighbors], [visit_map], [visit], [is_visited], [node_bound],
    [to_index] and [edge_references].  Vec and VecDeque are lists, [UnionFind] is as in
    Kruskal.v. *)

From Verif Require Import Machine Traverse Kruskal.

(** [for x in it { body }] where the body may also return from the function. *)
Definition for_return {It X S R} (next : It -> outcome (option X * It)) (it : It)
  (body : S -> X -> outcome (S + R)) (s : S) : outcome (S + R) :=
  loop (fun st : It * S =>
    let! (x, it') := next (fst st) in
    match x with
    | None => Ok (inr (inl (snd st)))
    | Some x =>
        let! r := body (snd st) x in
        Ok (match r with inl s' => inl (it', s') | inr r => inr (inr r) end)
    end) (it, s).

Section Searches.
  Context {C It VM : Type} (nb : C -> It) (nb_next : C -> It -> outcome (option C * It))
    (visit : VM -> C -> outcome (bool * VM)) (visited : VM -> C -> outcome bool)
    (eqb : C -> C -> bool).

  (** The queue (front first), the map [red] and the map [blue]. *)
  Definition Bip : Type := list C * (VM * VM).

  (** [is_bipartite_undirected]: the body of the inner loop. *)
  Definition bip_neighbour (is_red is_blue : bool) (st : Bip) (x : C) : outcome (Bip + bool) :=
    let '(q, (red, blue)) := st in
    let! x_red := visited red x in
    let! x_blue := visited blue x in
    if (is_red && x_red) || (is_blue && x_blue) then Ok (inr false)
    else if negb x_red && negb x_blue then
      match is_red, is_blue with
      | true, false => let! (_, blue) := visit blue x in Ok (inl (q ++ [x], (red, blue)))
      | false, true => let! (_, red) := visit red x in Ok (inl (q ++ [x], (red, blue)))
      | _, _ => Fail FPanic
      end
    else Ok (inl (q, (red, blue))).

  (** One round of the outer loop. *)
  Definition bip_round (st : Bip) : outcome (Bip + bool) :=
    let '(q, (red, blue)) := st in
    match q with
    | [] => Ok (inr true)
    | node :: q =>
        let! is_red := visited red node in
        let! is_blue := visited blue node in
        if xorb is_red is_blue then
          for_return (nb_next node) (nb node) (bip_neighbour is_red is_blue) (q, (red, blue))
        else Fail FPanic
    end.

  Definition is_bipartite_undirected (fresh : VM) (start : C) : outcome bool :=
    let! (_, red) := visit fresh start in
    loop bip_round ([start], (red, fresh)).

  (** [has_path_connecting]: is [to] among the nodes that [Dfs] finds from [from]? *)
  Definition has_path_connecting (fresh : VM) (from to : C) : outcome bool :=
    let! r := for_return (dfs_next nb nb_next visit visited) (dfs_new fresh from)
      (fun (_ : unit) x => Ok (if eqb x to then inr tt else inl tt)) tt in
    Ok (match r with inl _ => false | inr _ => true end).

  (** [DfsPostOrder]: the stack (top first) and the maps [discovered] and [finished]. *)
  Definition Dpo : Type := list C * (VM * VM).

  (** [DfsPostOrder::new] *)
  Definition dpo_new (fresh : VM) (start : C) : Dpo := ([start], (fresh, fresh)).

  (** [DfsPostOrder::next]: one round of its loop. *)
  Definition dpo_round (st : Dpo) : outcome (Dpo + (option C * Dpo)) :=
    let '(stack, (discovered, finished)) := st in
    match stack with
    | [] => Ok (inr (None, st))
    | nx :: rest =>
        let! (new, discovered) := visit discovered nx in
        if new then
          let! stack := for_each (nb_next nx) (nb nx) (fun stack succ =>
            let! v := visited discovered succ in
            Ok (if v then stack else succ :: stack)) stack in
          Ok (inl (stack, (discovered, finished)))
        else
          let! (new, finished) := visit finished nx in
          Ok (if new then inr (Some nx, (rest, (discovered, finished)))
              else inl (rest, (discovered, finished)))
    end.
  Definition dpo_next (st : Dpo) : outcome (option C * Dpo) := loop dpo_round st.
End Searches.

(** [is_cyclic_undirected]: does an edge join two nodes that are linked already? *)
Definition is_cyclic_undirected {C Ed RIt T} (U : UFOps T) (bound : outcome Z)
  (to_index : C -> outcome Z) (refs : RIt) (refs_next : RIt -> outcome (option Ed * RIt))
  (source target : Ed -> outcome C) : outcome bool :=
  let! n := bound in
  let! r := for_return refs_next refs (fun t e =>
    let! a := source e in
    let! b := target e in
    let! i := to_index a in
    let! j := to_index b in
    let! (new, t) := uf_union U t i j in
    Ok (if (new : bool) then inl t else inr tt)) (uf_new U n) in
  Ok (match r with inl _ => false | inr _ => true end).
