(** * Spec16: what the events of a depth first search should be. *)

From Verif Require Import Machine DfsEvents.
From Coq Require Import Permutation.

Section Events.
  Context {C : Type}.

  (** The nodes discovered and the nodes finished by some events, in their order. *)
  Fixpoint discovered (tr : list (DfsEvent C)) : list C :=
    match tr with
    | [] => []
    | Discover c _ :: tr => c :: discovered tr
    | _ :: tr => discovered tr
    end.
  Fixpoint finished (tr : list (DfsEvent C)) : list C :=
    match tr with
    | [] => []
    | Finish c _ :: tr => c :: finished tr
    | _ :: tr => finished tr
    end.

  (** The times told. *)
  Fixpoint times (tr : list (DfsEvent C)) : list Z :=
    match tr with
    | [] => []
    | Discover _ t :: tr | Finish _ t :: tr => t :: times tr
    | _ :: tr => times tr
    end.

  (** The edges looked at: from which node to which. *)
  Fixpoint edges_seen (tr : list (DfsEvent C)) : list (C * C) :=
    match tr with
    | [] => []
    | TreeEdge a b :: tr | BackEdge a b :: tr | CrossForwardEdge a b :: tr => (a, b) :: edges_seen tr
    | _ :: tr => edges_seen tr
    end.

  (** The nodes being searched after some events, innermost first: a discovered node is put on
      top, and a finished one must be on top. *)
  Fixpoint open_after (st : list C) (tr : list (DfsEvent C)) : list C :=
    match tr with
    | [] => st
    | Discover c _ :: tr => open_after (c :: st) tr
    | Finish _ _ :: tr => open_after (tl st) tr
    | _ :: tr => open_after st tr
    end.

  (** [From a es l]: the edges among [es] that start at [a] go to [l], in that order. *)
  Inductive From (a : C) : list (C * C) -> list C -> Prop :=
  | from_nil : From a [] []
  | from_this b es l : From a es l -> From a ((a, b) :: es) (b :: l)
  | from_other x b es l : x <> a -> From a es l -> From a ((x, b) :: es) l.

  (** [Proper nbs starts pre e]: what each event says is so after the events [pre]; [nbs] are
      the neighbours of a node and [starts] the nodes that the search is started from.
      - A node is discovered once: as the first of the [starts] that is not discovered yet when
        no node is being searched, or right after the tree edge that leads to it.
      - An edge leads from the innermost node to one of its neighbours, and is called by what
        has happened to that neighbour so far.
      - The innermost node is finished when its neighbours have been looked at in their order. *)
  Definition Proper (nbs : C -> list C) (starts : list C) (pre : list (DfsEvent C)) (e : DfsEvent C)
    : Prop :=
    match e with
    | Discover c _ =>
        ~ In c (discovered pre) /\
        ((open_after [] pre = [] /\
          exists before after, starts = before ++ c :: after /\ incl before (discovered pre)) \/
         exists pre' p, pre = pre' ++ [TreeEdge p c])
    | TreeEdge a b =>
        hd_error (open_after [] pre) = Some a /\ In b (nbs a) /\ ~ In b (discovered pre)
    | BackEdge a b =>
        hd_error (open_after [] pre) = Some a /\ In b (nbs a) /\ In b (open_after [] pre)
    | CrossForwardEdge a b =>
        hd_error (open_after [] pre) = Some a /\ In b (nbs a) /\ In b (finished pre)
    | Finish c _ =>
        hd_error (open_after [] pre) = Some c /\ ~ In c (finished pre) /\
        From c (edges_seen pre) (nbs c)
    end.

  (** [Leads nbs nodes starts c]: some steps from a node to a neighbour that is one of the
      [nodes] lead from one of the [starts] to [c]. *)
  Inductive Leads (nbs : C -> list C) (nodes starts : list C) : C -> Prop :=
  | leads_start c : In c starts -> In c nodes -> Leads nbs nodes starts c
  | leads_step c x : Leads nbs nodes starts c -> In x (nbs c) -> In x nodes -> Leads nbs nodes starts x.

  (** The events of a depth first search from [starts] over the [nodes]. *)
  Record DepthFirst (nbs : C -> list C) (nodes starts : list C) (tr : list (DfsEvent C)) : Prop := {
    (* each event is as it should be, and a tree edge to a node is followed by its discovery *)
    df_proper : forall pre e post, tr = pre ++ e :: post -> Proper nbs starts pre e;
    df_enters : forall pre a b post, tr = pre ++ TreeEdge a b :: post -> In b nodes ->
      exists t post', post = Discover b t :: post';
    (* the nodes discovered are those that the starts lead to; all of them are finished *)
    df_found : NoDup (discovered tr) /\ forall c, In c (discovered tr) <-> Leads nbs nodes starts c;
    df_finished : Permutation (finished tr) (discovered tr);
    (* each edge from each of them is looked at once *)
    df_edges : Permutation (edges_seen tr)
      (flat_map (fun c => map (pair c) (nbs c)) (discovered tr));
    (* the times are 0, 1, 2, ... *)
    df_times : times tr = zrange (2 * Z.of_nat (length (discovered tr)))
  }.

  (** What a visitor makes of some events: it stops at the first on which it breaks off. *)
  Fixpoint told {V B} (visitor : V -> DfsEvent C -> V + B) (w : V) (tr : list (DfsEvent C)) : V + B :=
    match tr with
    | [] => inl w
    | e :: tr => match visitor w e with inl w => told visitor w tr | inr b => inr b end
    end.
End Events.
