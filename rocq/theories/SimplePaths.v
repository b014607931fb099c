(** * SimplePaths: [all_simple_paths] of petgraph 0.8 (src/algo/simple_paths.rs), as a client of the
    graphs.

    petgraph is outside of the repository; this is its algorithm as published, reduced to what it
    asks of a graph: [node_count] and [neighbors_directed] with [Outgoing].  [visited] is the list
    of the nodes of the [IndexSet] in the order of their insertion; the iterators of the stack come
    with the node they were made for, the last one first. *)

From Verif Require Import Machine Astar.

Section SimplePaths.
  Context {C It : Type} (eqb : C -> C -> bool) (m : mode) (count : outcome Z)
    (nb : C -> It) (nb_next : C -> It -> outcome (option C * It)) (to : C).

  Record PState := mkP {
    p_visited : list C;
    p_stack : list (C * It)
  }.

  (** [let max_length = if let Some(l) = max_intermediate_nodes { l + 1 } else
      { graph.node_count() - 1 }] *)
  Definition path_limit (most : option Z) : outcome Z :=
    match most with
    | Some l => usize_add m l 1
    | None => let! n := count in usize_sub m n 1
    end.

  Definition paths_init (from : C) : PState := mkP [from] [(from, nb from)].

  (** [children.any(|v| v == to)] *)
  Definition any_is_to (n : C) : It -> outcome (bool * It) :=
    loop (fun it =>
      let! (x, it') := nb_next n it in
      match x with
      | None => Ok (inr (false, it'))
      | Some v => if eqb v to then Ok (inr (true, it')) else Ok (inl it')
      end).

  (** One round of [while let Some(children) = stack.last_mut()]; [inr] is what [next] of the
      iterator returns, with what the closure then holds. *)
  Definition paths_round (max_length min_length : Z) (st : PState)
    : outcome (PState + option (list C) * PState) :=
    let visited := p_visited st in
    let len := Z.of_nat (length visited) in
    match p_stack st with
    | [] => Ok (inr (None, st))
    | (n, children) :: rest =>
        let! (x, it) := nb_next n children in
        match x with
        | Some child =>
            if len <? max_length then
              if eqb child to then
                if min_length <=? len
                then Ok (inr (Some (visited ++ [to]), mkP visited ((n, it) :: rest)))
                else Ok (inl (mkP visited ((n, it) :: rest)))
              else if existsb (eqb child) visited
              then Ok (inl (mkP visited ((n, it) :: rest)))
              else Ok (inl (mkP (visited ++ [child]) ((child, nb child) :: (n, it) :: rest)))
            else
              let! (found, it) := if eqb child to then Ok (true, it) else any_is_to n it in
              if found && (min_length <=? len)
              then Ok (inr (Some (visited ++ [to]), mkP visited ((n, it) :: rest)))
              else Ok (inl (mkP (removelast visited) rest))
        | None => Ok (inl (mkP (removelast visited) rest))
        end
    end.

  (** What calls of [next] yield until there is nothing left, each being a loop that ends without
      a fault. *)
  Inductive Yields (max_length min_length : Z) : PState -> list (list C) -> Prop :=
  | yields_end st st' :
      Returns (paths_round max_length min_length) st (None, st') ->
      Yields max_length min_length st []
  | yields_path st p st' l :
      Returns (paths_round max_length min_length) st (Some p, st') ->
      Yields max_length min_length st' l -> Yields max_length min_length st (p :: l).

  (** [AllSimplePaths from least most l]: [all_simple_paths(graph, from, to, least, most)] gives
      the paths [l]. *)
  Definition AllSimplePaths (from : C) (least : Z) (most : option Z) (l : list (list C)) : Prop :=
    exists max_length min_length,
      path_limit most = Ok max_length /\ usize_add m least 1 = Ok min_length /\
      Yields max_length min_length (paths_init from) l.
End SimplePaths.
