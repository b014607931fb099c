(** * Spec30: what the events of a depth first search should be when some of them are pruned. *)

From Verif Require Import Machine DfsEvents PruneDfs Spec16.
From Coq Require Import Permutation.

Section Events.
  Context {C : Type}.

  (** [prunes pre e]: whether the event [e] is pruned when it comes after the events [pre]. *)
  Context (prunes : list (DfsEvent C) -> DfsEvent C -> bool).

  (** The node [c] has been discovered among the events [tr], and that was pruned. *)
  Definition Cut (tr : list (DfsEvent C)) (c : C) : Prop :=
    exists pre t post, tr = pre ++ Discover c t :: post /\ prunes pre (Discover c t) = true.

  (** As [Proper] of Spec16, but
      - a node is discovered right after a tree edge only if that was not pruned;
      - no edge is looked at from a node that was cut, it is finished without them. *)
  Definition PProper (nbs : C -> list C) (starts : list C) (pre : list (DfsEvent C))
    (e : DfsEvent C) : Prop :=
    match e with
    | Discover c _ =>
        ~ In c (discovered pre) /\
        ((open_after [] pre = [] /\
          exists before after, starts = before ++ c :: after /\ incl before (discovered pre)) \/
         exists pre' p, pre = pre' ++ [TreeEdge p c] /\ prunes pre' (TreeEdge p c) = false)
    | TreeEdge a b =>
        hd_error (open_after [] pre) = Some a /\ ~ Cut pre a /\ In b (nbs a) /\
        ~ In b (discovered pre)
    | BackEdge a b =>
        hd_error (open_after [] pre) = Some a /\ ~ Cut pre a /\ In b (nbs a) /\
        In b (open_after [] pre)
    | CrossForwardEdge a b =>
        hd_error (open_after [] pre) = Some a /\ ~ Cut pre a /\ In b (nbs a) /\
        In b (finished pre)
    | Finish c _ =>
        hd_error (open_after [] pre) = Some c /\ ~ In c (finished pre) /\
        (Cut pre c -> From c (edges_seen pre) []) /\
        (~ Cut pre c -> From c (edges_seen pre) (nbs c))
    end.

  (** The events of a depth first search from [starts] over the [nodes]. *)
  Record PrunedFirst (nbs : C -> list C) (nodes starts : list C) (tr : list (DfsEvent C)) : Prop := {
    pf_proper : forall pre e post, tr = pre ++ e :: post -> PProper nbs starts pre e;
    (* a tree edge to a node is followed by its discovery, unless it is pruned *)
    pf_enters : forall pre a b post, tr = pre ++ TreeEdge a b :: post -> In b nodes ->
      prunes pre (TreeEdge a b) = false -> exists t post', post = Discover b t :: post';
    (* nodes are discovered once, the starts among them, and all of them are finished *)
    pf_once : NoDup (discovered tr);
    pf_nodes : incl (discovered tr) nodes;
    pf_starts : incl starts (discovered tr);
    pf_finished : Permutation (finished tr) (discovered tr);
    pf_times : times tr = zrange (2 * Z.of_nat (length (discovered tr)))
  }.
End Events.

Section Visitors.
  Context {C V B : Type} (visitor : V -> DfsEvent C -> Control V B).

  (** The state of the visitor after some events, if it has not broken off. *)
  Fixpoint state_after (w : V) (tr : list (DfsEvent C)) : option V :=
    match tr with
    | [] => Some w
    | e :: tr => match visitor w e with
                 | Continue w | Prune w => state_after w tr
                 | Break _ => None
                 end
    end.

  (** The events that the visitor prunes. *)
  Definition pruned_by (w : V) (pre : list (DfsEvent C)) (e : DfsEvent C) : bool :=
    match state_after w pre with
    | Some w => match visitor w e with Prune _ => true | _ => false end
    | None => false
    end.

  (** What the visitor makes of some events: it stops at the first on which it breaks off; to
      prune at [Finish] is a panic. *)
  Fixpoint ptold (w : V) (tr : list (DfsEvent C)) : outcome (V + B) :=
    match tr with
    | [] => Ok (inl w)
    | e :: tr =>
        match visitor w e, e with
        | Break b, _ => Ok (inr b)
        | Prune _, Finish _ _ => Fail FPanic
        | Prune w, _ | Continue w, _ => ptold w tr
        end
    end.
End Visitors.

(** A visitor that prunes by a rule: the discovery of the nodes [stop] and the tree edges [skip];
    at everything else it goes on. *)
Definition ruled {C} (stop : C -> bool) (skip : C -> C -> bool) (e : DfsEvent C) : bool :=
  match e with
  | Discover c _ => stop c
  | TreeEdge a b => skip a b
  | _ => false
  end.
Definition Ruled {C V B} (stop : C -> bool) (skip : C -> C -> bool)
  (visitor : V -> DfsEvent C -> Control V B) : Prop :=
  forall w e, exists w', visitor w e = if ruled stop skip e then Prune w' else Continue w'.

(** The steps that such a rule leaves. *)
Definition allowed {C} (stop : C -> bool) (skip : C -> C -> bool) (nbs : C -> list C) (c : C)
  : list C :=
  if stop c then [] else filter (fun x => negb (skip c x)) (nbs c).
