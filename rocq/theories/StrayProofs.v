(** * StrayProofs: where estimates lead A* along a line, whatever else there is (C74). *)

From Coq Require Import Permutation.
From Verif Require Import Machine Store Axes Shapes SquareGraph Traverse Astar Spec SpecSquare Spec4
  Basics AxisProofs SquareProofs SquareIter SquareMain TraverseProofs AstarProofs AstarMain.
From Coq Require Import ZifyBool ZifyNat.

Lemma chain_reconstruct : forall C (start : C) came v l, Chain start came v l ->
  Z.of_nat (length l) < 2 ^ 72 -> reconstruct came v = Ok l.
Proof.
  intros C start came v l HC Hl. unfold reconstruct.
  match goal with |- loop ?b _ = _ => set (body := b) end.
  assert (HR : forall acc, Rounds body (length l - 1) (v, v :: acc) (Ok (l ++ acc))).
  { clear Hl. induction HC as [Hn|v p l Hv HC IH]; intros acc.
    - apply R_done. subst body. cbn [fst snd]. rewrite Hn. reflexivity.
    - rewrite app_length. cbn [length].
      assert (Hl : (1 <= length l)%nat) by (destruct HC; rewrite ?app_length; cbn [length]; lia).
      replace (length l + 1 - 1)%nat with (S (length l - 1)) by lia.
      eapply R_more.
      + subst body. cbv beta. cbn [fst snd]. rewrite Hv. reflexivity.
      + cbn [snd]. rewrite <- app_assoc. cbn [app]. apply IH. }
  specialize (HR []). rewrite app_nil_r in HR. eapply loop_rounds; [exact HR|]. lia.
Qed.

Section Line.
  Context {C Ed It : Type} (eqb : C -> C -> bool) (H : HeapOps C)
    (edges : C -> outcome It) (edges_next : It -> outcome (option Ed * It))
    (targeto : Ed -> outcome C) (target : Ed -> C) (cost : Ed -> Z) (est : C -> Z) (goal : C -> bool)
    (Heqb : forall a b, eqb a b = true <-> a = b) (HH : HeapOK H)
    (out : C -> list Ed) (n : nat) (p : nat -> C)
    (Hn : Z.of_nat n + 1 < 2 ^ 72) (last : Z) (Hlast : 1 <= last <= 2)
    (Hedges : forall i, (i < n)%nat ->
      exists it, edges (p i) = Ok it /\ Drains edges_next it (out (p i)))
    (Hdeg : forall i, (i < n)%nat -> Z.of_nat (length (out (p i))) + 1 < 2 ^ 72)
    (Htgt : forall i e, (i < n)%nat -> In e (out (p i)) -> targeto e = Ok (target e))
    (Hcost : forall i e, (i < n)%nat -> In e (out (p i)) ->
      cost e = if eqb (target e) (p n) then last else 1)
    (Hinj : forall i j, (i <= n)%nat -> (j <= n)%nat -> p i = p j -> i = j)
    (Hest : forall i, (i <= n)%nat -> est (p i) = Z.of_nat n - Z.of_nat i)
    (Hnext : forall i, (i < n)%nat -> exists e, In e (out (p i)) /\ target e = p (S i))
    (Hoff : forall i e, (i < n)%nat -> In e (out (p i)) ->
      (exists j, (j <= S i)%nat /\ target e = p j) \/
      ((forall j, (j <= n)%nat -> target e <> p j) /\ Z.of_nat n - Z.of_nat i + 1 <= est (target e)))
    (Hgoal : forall i, (i <= n)%nat -> goal (p i) = (i =? n)%nat).

  Notation state := (AState (C := C)).
  Notation round := (astar_round eqb H edges edges_next targeto cost est goal).
  Notation high rest := (forall x, In x rest -> Z.of_nat n + 2 <= fst x).

  (** What it costs to come to a node of the line: its last step costs [last]. *)
  Let score (j : nat) : Z := if (j =? n)%nat then Z.of_nat n - 1 + last else Z.of_nat j.

  (** The nodes up to [k] of the line are scored; [q] is what matters of the heap. *)
  Record Along (k : nat) (heads : list (Z * C)) (st : state) : Prop := {
    l_heap : exists rest, Permutation (a_heap st) (heads ++ rest) /\ high rest;
    l_scored : forall j, (j <= k)%nat -> (j <= n)%nat -> a_scores st (p j) = Some (score j);
    l_vacant : forall j, (k < j)%nat -> (j <= n)%nat -> a_scores st (p j) = None;
    l_came : forall j, (j < k)%nat -> (j < n)%nat -> a_came st (p (S j)) = Some (p j);
    l_first : a_came st (p 0%nat) = None }.

  Let same : forall V (f : C -> option V) k v, map_insert eqb f k v k = Some v.
  Proof. intros. unfold map_insert. rewrite (proj2 (Heqb k k) eq_refl). auto. Qed.

  Let other : forall V (f : C -> option V) k v c, c <> k -> map_insert eqb f k v c = f c.
  Proof.
    intros V f k v c Hc. unfold map_insert. destruct (eqb c k) eqn:Ee; auto.
    apply Heqb in Ee. congruence.
  Qed.

  Lemma line_chain : forall k heads st, Along k heads st -> forall j, (j <= k)%nat -> (j <= n)%nat ->
    Chain (p 0%nat) (a_came st) (p j) (map p (seq 0 (S j))).
  Proof.
    intros k heads st A. induction j as [|j IH]; intros Hk Hj.
    - cbn. constructor. apply (l_first _ _ _ A).
    - rewrite seq_S, map_app. apply ch_step with (p := p j); [|apply IH; lia].
      apply (l_came _ _ _ A); lia.
  Qed.

  Let score_before : forall j, (j < n)%nat -> score j = Z.of_nat j.
  Proof. intros j Hj. unfold score. destruct (Nat.eqb_spec j n); lia. Qed.

  Let score_step : forall i e, (i < n)%nat -> In e (out (p i)) -> target e = p (S i) ->
    Z.of_nat i + cost e = score (S i).
  Proof.
    intros i e Hi He Et. rewrite (Hcost i e Hi He), Et. unfold score.
    destruct (Nat.eqb_spec (S i) n) as [<-|Hne].
    - rewrite (proj2 (Heqb _ _) eq_refl). lia.
    - destruct (eqb (p (S i)) (p n)) eqn:Ee; [|lia]. apply Heqb in Ee. apply Hinj in Ee; lia.
  Qed.

  Let f (j : nat) := (score j + est (p j), p j).
  Let f_next i := f (S i).

  Lemma relax_line : forall i e st, (i < n)%nat -> In e (out (p i)) ->
    (Along i [] st \/ Along (S i) [f_next i] st) ->
    exists st', relax eqb H targeto cost est (p i) (Z.of_nat i) st e = Ok st' /\
      a_ests st' = a_ests st /\
      (Along (S i) [f_next i] st -> Along (S i) [f_next i] st') /\
      (Along i [] st -> if eqb (target e) (p (S i)) then Along (S i) [f_next i] st' else Along i [] st').
  Proof.
    intros i e st Hi He HA. unfold relax. rewrite (Htgt i e Hi He). cbn [bind].
    destruct HH as [HP _].
    destruct (Hoff i e Hi He) as [(j & Hj & Ej)|[Hno Hfar]].
    - rewrite Ej. destruct (Nat.eq_dec j (S i)) as [->|Hne].
      + rewrite (proj2 (Heqb _ _) eq_refl). rewrite (score_step i e Hi He Ej).
        destruct (a_scores st (p (S i))) as [old|] eqn:Eo.
        * assert (A1 : Along (S i) [f_next i] st).
          { destruct HA as [HA|HA]; auto. rewrite (l_vacant _ _ _ HA (S i)) in Eo by lia. discriminate. }
          rewrite (l_scored _ _ _ A1 (S i)) in Eo by lia. injection Eo as <-.
          destruct (Z.leb_spec (score (S i)) (score (S i))); [|lia].
          exists st. split; [reflexivity|]. split; [reflexivity|]. split; auto.
        * assert (A1 : Along i [] st).
          { destruct HA as [HA|HA]; auto. rewrite (l_scored _ _ _ HA (S i)) in Eo by lia. discriminate. }
          eexists. split; [reflexivity|]. split; [reflexivity|]. split.
          { intros A2. rewrite (l_scored _ _ _ A2 (S i)) in Eo by lia. discriminate. }
          intros _. destruct A1 as [(rest & HR1 & HR2) L2 L3 L4 L5].
          constructor; cbn [a_heap a_scores a_came].
          -- exists rest. split; auto. cbn [app] in HR1 |- *.
             rewrite HP. unfold f_next, f. constructor. exact HR1.
          -- intros j H1 H2. destruct (Nat.eq_dec j (S i)) as [->|Hne].
             ++ rewrite same. auto.
             ++ rewrite other; [apply L2; lia|]. intros Ex. apply Hinj in Ex; lia.
          -- intros j H1 H2. rewrite other; [apply L3; lia|]. intros Ex. apply Hinj in Ex; lia.
          -- intros j H1 H2. destruct (Nat.eq_dec j i) as [->|Hne].
             ++ rewrite same. auto.
             ++ rewrite other; [apply L4; lia|]. intros Ex. apply Hinj in Ex; lia.
          -- rewrite other; auto. intros Ex. apply Hinj in Ex; lia.
      + assert (Es : a_scores st (p j) = Some (Z.of_nat j)).
        { rewrite <- score_before by lia. destruct HA as [HA|HA]; apply (l_scored _ _ _ HA); lia. }
        assert (1 <= cost e) by (rewrite (Hcost i e Hi He); destruct (eqb (target e) (p n)); lia).
        rewrite Es. destruct (Z.leb_spec (Z.of_nat j) (Z.of_nat i + cost e)); [|lia].
        exists st. split; [reflexivity|]. split; [reflexivity|]. split; [auto|]. intros HA1.
        destruct (eqb (p j) (p (S i))) eqn:Ee; auto.
        apply Heqb in Ee. apply Hinj in Ee; lia.
    - assert (NE : eqb (target e) (p (S i)) = false).
      { destruct (eqb (target e) (p (S i))) eqn:Ee; auto. apply Heqb in Ee.
        exfalso. apply (Hno (S i)); auto. }
      rewrite NE.
      assert (Hc1 : cost e = 1).
      { rewrite (Hcost i e Hi He). destruct (eqb (target e) (p n)) eqn:Ee; auto. apply Heqb in Ee.
        exfalso. apply (Hno n); auto. }
      rewrite Hc1.
      assert (KEEP : forall k heads, (k <= n)%nat -> Along k heads st -> Along k heads
        (mkA (heap_push H (Z.of_nat i + 1 + est (target e), target e) (a_heap st))
          (map_insert eqb (a_scores st) (target e) (Z.of_nat i + 1)) (a_ests st)
          (map_insert eqb (a_came st) (target e) (p i)))).
      { intros k heads Hk [(rest & HR1 & HR2) L2 L3 L4 L5].
        constructor; cbn [a_heap a_scores a_came].
        - exists ((Z.of_nat i + 1 + est (target e), target e) :: rest). split.
          + rewrite HP. rewrite HR1. apply Permutation_middle.
          + intros x [<-|Hx]; [cbn [fst]; lia|auto].
        - intros j H1 H2. rewrite other; [apply L2; auto|]. intros Ex. apply (Hno j); auto.
        - intros j H1 H2. rewrite other; [apply L3; auto|]. intros Ex. apply (Hno j); auto.
        - intros j H1 H2. rewrite other; [apply L4; auto|]. intros Ex. apply (Hno (S j)); auto.
        - rewrite other; auto. intros Ex. apply (Hno 0%nat); auto; lia. }
      destruct (a_scores st (target e)) as [old|].
      + destruct (old <=? Z.of_nat i + 1); eexists; (split; [reflexivity|]).
        * auto.
        * split; [reflexivity|]. split; apply KEEP; lia.
      + eexists. split; [reflexivity|]. split; [reflexivity|]. split; apply KEEP; lia.
  Qed.

  Lemma relax_line_all : forall i l st, (i < n)%nat -> (forall e, In e l -> In e (out (p i))) ->
    (Along i [] st /\ (exists e, In e l /\ target e = p (S i))) \/ Along (S i) [f_next i] st ->
    exists st', fold_outcome (relax eqb H targeto cost est (p i) (Z.of_nat i)) l st = Ok st' /\
      a_ests st' = a_ests st /\ Along (S i) [f_next i] st'.
  Proof.
    intros i l. induction l as [|e l IH]; intros st Hi Hl HA.
    - destruct HA as [[_ (e & [] & _)]|HA]. exists st. auto.
    - cbn [fold_outcome].
      destruct (relax_line i e st Hi) as (st1 & E1 & E2 & K1 & K2); [apply Hl; left; auto|tauto|].
      rewrite E1. cbn [bind].
      destruct (IH st1) as (st' & F1 & F2 & F3); auto.
      + intros e' He'. apply Hl. right; auto.
      + destruct HA as [[HA (e' & He' & Et)]|HA]; [|right; auto].
        specialize (K2 HA). destruct (eqb (target e) (p (S i))) eqn:Ee; [right; auto|].
        left. split; auto. exists e'. split; auto. destruct He' as [->|He']; auto.
        rewrite Et, (proj2 (Heqb _ _) eq_refl) in Ee. discriminate.
      + exists st'. split; auto. split; auto. congruence.
  Qed.

  Lemma line_returns : forall k i st, (i + k = n)%nat -> Along i [f i] st ->
    (forall j, (i <= j <= n)%nat -> a_ests st (p j) = None) ->
    Returns round st (Some (Z.of_nat n - 1 + last, map p (seq 0 (S n)))).
  Proof.
    assert (LOW : forall i, (i <= n)%nat -> score i + est (p i) <= Z.of_nat n + 1).
    { intros i Hi. rewrite Hest by auto. unfold score. destruct (Nat.eqb_spec i n); lia. }
    induction k as [|k IH]; intros i st Hk A He;
      assert (POP : exists q, heap_pop H (a_heap st) = Some (f i, q) /\ high q).
    1,3: destruct (l_heap _ _ _ A) as (rest & HR1 & HR2); cbn [app] in HR1;
      destruct HH as [_ HP]; specialize (HP (a_heap st));
      destruct (heap_pop H (a_heap st)) as [[x q]|];
      [|rewrite HP in HR1; apply Permutation_nil in HR1; discriminate];
      destruct HP as [HP1 HP2];
      assert (Hx : x = f i);
      [ assert (Hin : In (f i) (a_heap st))
          by (apply (Permutation_in _ (Permutation_sym HR1)); left; auto);
        specialize (HP2 _ Hin); specialize (LOW i ltac:(lia)); unfold f in HP2; cbn [fst] in HP2;
        assert (Hx : In x (a_heap st)) by (apply (Permutation_in _ (Permutation_sym HP1)); left; auto);
        apply (Permutation_in _ HR1) in Hx; destruct Hx as [Hx|Hx]; [auto|specialize (HR2 _ Hx); lia]
      | subst x; exists q; split; auto; intros y Hy; apply HR2;
        rewrite HP1 in HR1; apply Permutation_cons_inv in HR1;
        apply (Permutation_in _ HR1); exact Hy ].
    - destruct POP as (q & Q1 & Q2). assert (i = n) by lia. subst i.
      apply returns_now. unfold astar_round. rewrite Q1. unfold f.
      rewrite (l_scored _ _ _ A n) by lia. rewrite Hgoal by lia. unfold score. rewrite Nat.eqb_refl.
      rewrite (chain_reconstruct _ (p 0%nat) (a_came st) (p n) (map p (seq 0 (S n)))).
      + reflexivity.
      + apply (line_chain _ _ _ A); lia.
      + rewrite map_length, seq_length. lia.
    - destruct POP as (q & Q1 & Q2). assert (Hi : (i < n)%nat) by lia.
      destruct (Hedges i Hi) as (it & D1 & D2).
      destruct (relax_line_all i (out (p i))
        (mkA q (a_scores st) (map_insert eqb (a_ests st) (p i) (score i + est (p i))) (a_came st)))
        as (st' & F1 & F2 & F3); auto.
      + left. split; [|apply Hnext; auto]. destruct A as [_ L2 L3 L4 L5].
        constructor; cbn [a_heap a_scores a_came]; auto. exists q. split; auto.
      + eapply returns_later.
        * unfold astar_round. rewrite Q1. unfold f. rewrite (l_scored _ _ _ A i) by lia.
          rewrite Hgoal by lia. destruct (Nat.eqb_spec i n); [lia|].
          rewrite (He i) by lia. rewrite D1. cbn [bind].
          rewrite score_before in F1 |- * by lia.
          rewrite (for_each_fold _ _ _ _ _ (out (p i)) _ _ st'); auto. reflexivity.
        * apply (IH (S i)); [lia|exact F3|].
          intros j Hj. rewrite F2. cbn [a_ests]. rewrite other; [apply He; lia|].
          intros Ex. apply Hinj in Ex; lia.
  Qed.

  Lemma line_found : (0 < n)%nat ->
    Returns round (astar_init eqb H est (p 0%nat)) (Some (Z.of_nat n - 1 + last, map p (seq 0 (S n)))).
  Proof.
    intros Hp. apply (line_returns n 0%nat); [auto| |auto].
    unfold astar_init. constructor; cbn [a_heap a_scores a_came].
    - exists []. split; [|intros x []]. destruct HH as [HP _]. rewrite HP. unfold f.
      rewrite score_before by auto. reflexivity.
    - intros j H1 H2. replace j with 0%nat by lia. rewrite same, score_before by auto. auto.
    - intros j H1 H2. rewrite other; auto. intros Ex. apply Hinj in Ex; lia.
    - intros j H1. lia.
    - auto.
  Qed.
End Line.

(** ** Rings of a [SquareGraph] *)

Lemma wrapped_in : forall l n x, 0 <= x < n -> wrapped l n x = Some x.
Proof. intros l n x Hx. unfold wrapped. replace ((0 <=? x) && (x <? n)) with true by lia. auto. Qed.

Lemma wrapped_last : forall n, 1 <= n -> wrapped true n (-1) = Some (n - 1).
Proof.
  intros n Hn. unfold wrapped. cbn [Z.leb Z.compare andb].
  replace (-1) with (n - 1 + (-1) * n) by lia. rewrite Z_mod_plus_full, Z.mod_small by lia. auto.
Qed.

Lemma pair_ext : forall x y x' y' : Z, x = x' -> y = y' -> (x, y) = (x', y').
Proof. intros. congruence. Qed.

Lemma some_inj : forall T (x y : T), Some x = Some y -> x = y.
Proof. intros. congruence. Qed.

Ltac pair_lia Ex :=
  let E1 := fresh in let E2 := fresh in
  pose proof (f_equal fst Ex) as E1; pose proof (f_equal snd Ex) as E2; cbn [fst snd] in E1, E2; lia.

Section Ring.
  Context {N E : Type} {ix : IxType} {S : LoopShape} {m : mode} {h v : Z}
    (SZ : sq_size S h v) (FX : sq_index_fits ix h v)
    (g : SquareGraph N E ix S) (nf : NodeIndex -> N) (ef : EdgeIndex -> E)
    (B : SqBuilt m h v g nf ef) (H : HeapOps NodeIndex) (HH : HeapOK H).
  Notation edges := (fun n => Ok (sg_edges g n)).
  Notation target := (sr_target (ix := ix) (S := S) m).

  (** The general shape of both rings: [c i] is the node after [i] steps. *)
  Lemma ring_line : forall (n : nat) (c : nat -> NodeIndex) (back : NodeIndex) est
      (hard : EdgeIndex) (last : Z) (cost : SqEdgeReference E -> Z),
    1 <= last <= 2 -> (forall e, sr_id e = hard -> cost e = last) ->
    (forall e, sr_id e <> hard -> cost e = 1) ->
    (0 < n)%nat -> Z.of_nat n + 1 < 2 ^ 72 ->
    (forall i, (i <= n)%nat -> on_board h v (c i)) ->
    (forall i j, c i = c j -> i = j) ->
    (forall x, on_board h v x -> est x = manhattan x (c n)) ->
    (forall i, (i <= n)%nat -> manhattan (c i) (c n) = Z.of_nat n - Z.of_nat i) ->
    (forall i, (i < n)%nat -> exists d, sq_neighbour S h v (c i) d = Some (c (Datatypes.S i))) ->
    (forall i d t, (i < n)%nat -> sq_neighbour S h v (c i) d = Some t ->
      (exists j, (j <= Datatypes.S i)%nat /\ t = c j) \/
      ((forall j, (j <= n)%nat -> t <> c j) /\ Z.of_nat n - Z.of_nat i + 1 <= manhattan t (c n))) ->
    (forall i d t, (i < n)%nat -> sq_neighbour S h v (c i) d = Some t ->
      (sq_edge_name (c i) d t = hard <-> t = c n)) ->
    (exists d d', sq_neighbour S h v (c 0%nat) d = Some back /\
      sq_neighbour S h v back d' = Some (c n) /\
      sq_edge_name (c 0%nat) d back <> hard /\ sq_edge_name back d' (c n) <> hard) ->
    Returns (astar_round veqb H edges (sg_edges_next m g) target cost est
      (fun x => veqb x (c n))) (astar_init veqb H est (c 0%nat))
      (Some (Z.of_nat n - 1 + last, map c (seq 0 (Datatypes.S n)))) /\
    Route edges (sg_edges_next m g) target cost (c 0%nat) [c 0%nat; back; c n] 2 (c n).
  Proof using All.
    intros n c back est hard last cost Hlast Hc2 Hc1 Hp Hn Hon Hinj Hest Hman Hstep Hnb Hhard
      (d & d' & Hd & Hd' & Hb1 & Hb2).
    assert (IN : forall i, (i <= n)%nat -> In (c i) (sq_nodes h v))
      by (intros i Hi; apply sq_in_nodes; auto).
    split.
    - apply (line_found veqb H edges (sg_edges_next m g) target (sq_tgt (S := S) (m := m) (ix := ix)) cost est
        (fun x => veqb x (c n)) veqb_eq HH (sq_out (S := S) (h := h) (v := v) ef) n c) with (last := last); auto.
      + intros i Hi. apply (sqa_edges SZ FX g nf ef B). apply IN. lia.
      + intros i Hi. apply sqa_degree. apply IN. lia.
      + intros i e Hi He. apply (sqa_target SZ FX ef (c i)); auto. apply IN. lia.
      + intros i e Hi He. destruct (sqa_named (m := m) SZ FX ef (c i) e) as (_ & d0 & Hd0 & Hid); auto;
          [apply IN; lia|].
        specialize (Hhard i d0 _ Hi Hd0). rewrite <- Hid in Hhard.
        destruct (veqb (sq_tgt e) (c n)) eqn:Ee.
        * apply veqb_eq in Ee. apply Hc2. apply Hhard. auto.
        * apply Hc1. intros Ei. apply Hhard in Ei. apply veqb_eq in Ei. congruence.
      + intros i Hi. rewrite Hest; auto.
      + intros i Hi. destruct (Hstep i Hi) as (d0 & Hd0).
        apply (sqa_neighbour SZ FX ef (c i) d0); auto. apply IN. lia.
      + intros i e Hi He.
        destruct (sqa_target (m := m) SZ FX ef (c i) e) as (_ & d0 & Hd0); auto; [apply IN; lia|].
        destruct (Hnb i d0 _ Hi Hd0) as [K|[K1 K2]]; [left; auto|]. right. split; auto.
        assert (Hi' : on_board h v (c i)) by (apply Hon; lia).
        rewrite Hest; auto. exact (neighbour_on_board _ _ _ _ _ Hi' Hd0).
      + intros i Hi. destruct (Nat.eqb_spec i n) as [->|Hne].
        * apply veqb_eq. auto.
        * destruct (veqb (c i) (c n)) eqn:Ee; auto. apply veqb_eq in Ee. apply Hinj in Ee. lia.
    - assert (I0 : In (c 0%nat) (sq_nodes h v)) by (apply IN; lia).
      apply (route_iff edges (sg_edges_next m g) target (sq_tgt (S := S) (m := m) (ix := ix)) cost
        (sq_nodes h v) (sq_out (S := S) (h := h) (v := v) ef)); auto.
      + apply (sqa_edges SZ FX g nf ef B).
      + intros a e Ha He. apply (sqa_target SZ FX ef a e Ha He).
      + apply (sqa_in SZ FX ef).
      + destruct (sqa_neighbour_named (m := m) SZ FX ef (c 0%nat) d back I0 Hd) as (e & He & Et & Ei).
        assert (IB : In back (sq_nodes h v)).
        { apply sq_in_nodes. apply sq_in_nodes in I0. exact (neighbour_on_board _ _ _ _ _ I0 Hd). }
        destruct (sqa_neighbour_named (m := m) SZ FX ef back d' (c n) IB Hd') as (e' & He' & Et' & Ei').
        assert (K1 : cost e = 1) by (apply Hc1; congruence).
        assert (K2 : cost e' = 1) by (apply Hc1; congruence).
        replace 2 with (cost e + (cost e' + 0)) by lia.
        refine (gr_step _ cost _ _ e [back; c n] _ _ He _). rewrite Et.
        refine (gr_step _ cost _ _ e' [c n] _ _ He' _). rewrite Et'. constructor.
  Qed.

  Lemma ring_h_cost : loops_h S = true -> 4 <= h -> forall y, 0 <= y < v ->
    forall est, (forall x, on_board h v x -> ni_distance m x (h - 1, y) = Ok (est x)) ->
    forall last cost, 1 <= last <= 2 ->
    (forall e, sr_id e = ((h - 2, y), Horizontal) -> cost e = last) ->
    (forall e, sr_id e <> ((h - 2, y), Horizontal) -> cost e = 1) ->
    let start := (1, y) in let goal := (h - 1, y) in
    exists p, Returns (astar_round veqb H edges (sg_edges_next m g) target cost est
      (fun x => veqb x goal)) (astar_init veqb H est start) (Some (h - 3 + last, p)) /\
    Route edges (sg_edges_next m g) target cost start [start; (0, y); goal] 2 goal.
  Proof using All.
    intros HL Hh y Hy est Hest last cost Hlast Hc2 Hc1 start goal.
    set (n := Z.to_nat (h - 2)). set (c := fun i : nat => (1 + Z.of_nat i, y)).
    assert (En : c n = goal) by (unfold c, goal, n; apply pair_ext; lia).
    assert (E0 : c 0%nat = start) by reflexivity.
    assert (Hb : on_board h v goal) by (unfold on_board, goal; cbn [fst snd]; lia).
    pose proof (sizes SZ) as SS.
    destruct (ring_line n c (0, y) est ((h - 2, y), Horizontal) last cost) as [R1 R2]; auto.
    - unfold n. lia.
    - unfold n. lia.
    - intros i Hi. unfold on_board, c. cbn [fst snd]. unfold n in Hi. lia.
    - unfold c. intros i j Ex. pair_lia Ex.
    - intros x Hx. specialize (Hest x Hx). rewrite distance_ok in Hest by (eapply on_board_small; eauto).
      injection Hest as <-. rewrite En. auto.
    - intros i Hi. unfold manhattan, c. cbn [fst snd]. unfold n in *. lia.
    - intros i Hi. exists (Foward Horizontal). unfold sq_neighbour, c, n in *.
      cbn [fst snd sq_dir_vec sq_axis_vec].
      rewrite !wrapped_in by lia. apply f_equal, pair_ext; lia.
    - intros i d t Hi Ht. rewrite En. unfold sq_neighbour, c, goal, n in *.
      destruct d as [[|]|[|]]; cbn [fst snd sq_dir_vec sq_axis_vec vneg] in Ht.
      + rewrite !wrapped_in in Ht by lia. apply some_inj in Ht; subst t.
        left. exists (Datatypes.S i). split; [auto|]. apply pair_ext; lia.
      + rewrite wrapped_in in Ht by lia.
        destruct (wrapped (loops_v S) v (y + 1)) as [y'|]; [|discriminate]. apply some_inj in Ht; subst t.
        destruct (Z.eq_dec y' y) as [->|Hne].
        * left. exists i. split; [auto|]. apply pair_ext; lia.
        * right. unfold manhattan. cbn [fst snd]. split; [|lia]. intros j _ Ex. pair_lia Ex.
      + rewrite !wrapped_in in Ht by lia. apply some_inj in Ht; subst t.
        destruct i as [|i].
        * right. unfold manhattan. cbn [fst snd]. split; [|lia]. intros j _ Ex. pair_lia Ex.
        * left. exists i. split; [auto|]. apply pair_ext; lia.
      + rewrite wrapped_in in Ht by lia.
        destruct (wrapped (loops_v S) v (y + - (1))) as [y'|]; [|discriminate]. apply some_inj in Ht; subst t.
        destruct (Z.eq_dec y' y) as [->|Hne].
        * left. exists i. split; [auto|]. apply pair_ext; lia.
        * right. unfold manhattan. cbn [fst snd]. split; [|lia]. intros j _ Ex. pair_lia Ex.
    - intros i d t Hi Ht. rewrite En. unfold sq_neighbour, c, goal, n in *.
      destruct d as [[|]|[|]]; cbn [fst snd sq_dir_vec sq_axis_vec vneg sq_edge_name] in Ht |- *.
      + rewrite !wrapped_in in Ht by lia. apply some_inj in Ht; subst t.
        split; intros Ex; [apply (f_equal fst) in Ex; cbn [fst] in Ex; apply pair_ext; pair_lia Ex|].
        f_equal. apply pair_ext; pair_lia Ex.
      + rewrite wrapped_in in Ht by lia.
        destruct (wrapped (loops_v S) v (y + 1)) as [z|]; [|discriminate]. apply some_inj in Ht; subst t.
        split; intros Ex; [discriminate|pair_lia Ex].
      + rewrite !wrapped_in in Ht by lia. apply some_inj in Ht; subst t.
        split; intros Ex; [apply (f_equal fst) in Ex; cbn [fst] in Ex|]; pair_lia Ex.
      + rewrite wrapped_in in Ht by lia.
        destruct (wrapped (loops_v S) v (y + - (1))) as [z|]; [|discriminate]. apply some_inj in Ht; subst t.
        split; intros Ex; [discriminate|pair_lia Ex].
    - exists (Backward Horizontal), (Backward Horizontal). rewrite En.
      unfold sq_neighbour, c, goal. cbn [fst snd sq_dir_vec sq_axis_vec vneg]. rewrite HL. split; [|split].
      + rewrite !wrapped_in by lia. apply f_equal, pair_ext; lia.
      + change (0 + -1) with (-1). rewrite wrapped_last, wrapped_in by lia. apply f_equal, pair_ext; lia.
      + cbn [sq_edge_name]. split; intros Ex; apply (f_equal fst) in Ex; cbn [fst] in Ex; pair_lia Ex.
    - exists (map c (seq 0 (Datatypes.S n))). rewrite En, E0 in *.
      replace (h - 3 + last) with (Z.of_nat n - 1 + last) by (unfold n; lia). auto.
  Qed.

  Lemma ring_h : loops_h S = true -> 5 <= h -> forall y, 0 <= y < v ->
    let cost := fun _ : SqEdgeReference E => 1 in
    let start := (1, y) in let goal := (h - 1, y) in
    forall est, (forall x, on_board h v x -> ni_distance m x goal = Ok (est x)) ->
    exists p, Returns (astar_round veqb H edges (sg_edges_next m g) target cost est
      (fun x => veqb x goal)) (astar_init veqb H est start) (Some (h - 2, p)) /\
    Route edges (sg_edges_next m g) target cost start [start; (0, y); goal] 2 goal.
  Proof using All.
    intros HL H5 y Hr cost start goal est Hest.
    replace (h - 2) with (h - 3 + 1) by lia.
    apply (ring_h_cost HL ltac:(lia) y Hr est Hest 1 cost); auto. lia.
  Qed.

  Lemma ring_h_hard : loops_h S = true -> 4 <= h -> forall y, 0 <= y < v ->
    let start := (1, y) in let goal := (h - 1, y) in let hard := ((h - 2, y), Horizontal) in
    forall cost, (forall e, sr_id e = hard -> cost e = 2) -> (forall e, sr_id e <> hard -> cost e = 1) ->
    forall est, (forall x, on_board h v x -> ni_distance m x goal = Ok (est x)) ->
    exists p, Returns (astar_round veqb H edges (sg_edges_next m g) target cost est
      (fun x => veqb x goal)) (astar_init veqb H est start) (Some (h - 1, p)) /\
    Route edges (sg_edges_next m g) target cost start [start; (0, y); goal] 2 goal.
  Proof using All.
    intros HL H5 y Hr start goal hard cost Hc2 Hc1 est Hest.
    replace (h - 1) with (h - 3 + 2) by lia.
    apply (ring_h_cost HL ltac:(lia) y Hr est Hest 2 cost); auto. lia.
  Qed.

  Lemma ring_v_cost : loops_v S = true -> 4 <= v -> forall x, 0 <= x < h ->
    forall est, (forall y, on_board h v y -> ni_distance m y (x, v - 1) = Ok (est y)) ->
    forall last cost, 1 <= last <= 2 ->
    (forall e, sr_id e = ((x, v - 2), Vertical) -> cost e = last) ->
    (forall e, sr_id e <> ((x, v - 2), Vertical) -> cost e = 1) ->
    let start := (x, 1) in let goal := (x, v - 1) in
    exists p, Returns (astar_round veqb H edges (sg_edges_next m g) target cost est
      (fun y => veqb y goal)) (astar_init veqb H est start) (Some (v - 3 + last, p)) /\
    Route edges (sg_edges_next m g) target cost start [start; (x, 0); goal] 2 goal.
  Proof using All.
    intros HL Hv x Hx est Hest last cost Hlast Hc2 Hc1 start goal.
    set (n := Z.to_nat (v - 2)). set (c := fun i : nat => (x, 1 + Z.of_nat i)).
    assert (En : c n = goal) by (unfold c, goal, n; apply pair_ext; lia).
    assert (E0 : c 0%nat = start) by reflexivity.
    assert (Hb : on_board h v goal) by (unfold on_board, goal; cbn [fst snd]; lia).
    pose proof (sizes SZ) as SS.
    destruct (ring_line n c (x, 0) est ((x, v - 2), Vertical) last cost) as [R1 R2]; auto.
    - unfold n. lia.
    - unfold n. lia.
    - intros i Hi. unfold on_board, c. cbn [fst snd]. unfold n in Hi. lia.
    - unfold c. intros i j Ex. pair_lia Ex.
    - intros y Hy. specialize (Hest y Hy). rewrite distance_ok in Hest by (eapply on_board_small; eauto).
      injection Hest as <-. rewrite En. auto.
    - intros i Hi. unfold manhattan, c. cbn [fst snd]. unfold n in *. lia.
    - intros i Hi. exists (Foward Vertical). unfold sq_neighbour, c, n in *.
      cbn [fst snd sq_dir_vec sq_axis_vec].
      rewrite !wrapped_in by lia. apply f_equal, pair_ext; lia.
    - intros i d t Hi Ht. rewrite En. unfold sq_neighbour, c, goal, n in *.
      destruct d as [[|]|[|]]; cbn [fst snd sq_dir_vec sq_axis_vec vneg] in Ht; swap 1 2; swap 3 4.
      + rewrite !wrapped_in in Ht by lia. apply some_inj in Ht; subst t.
        left. exists (Datatypes.S i). split; [auto|]. apply pair_ext; lia.
      + rewrite (wrapped_in _ v) in Ht by lia.
        destruct (wrapped (loops_h S) h (x + 1)) as [x'|]; [|discriminate]. apply some_inj in Ht; subst t.
        destruct (Z.eq_dec x' x) as [->|Hne].
        * left. exists i. split; [auto|]. apply pair_ext; lia.
        * right. unfold manhattan. cbn [fst snd]. split; [|lia]. intros j _ Ex. pair_lia Ex.
      + rewrite !wrapped_in in Ht by lia. apply some_inj in Ht; subst t.
        destruct i as [|i].
        * right. unfold manhattan. cbn [fst snd]. split; [|lia]. intros j _ Ex. pair_lia Ex.
        * left. exists i. split; [auto|]. apply pair_ext; lia.
      + rewrite (wrapped_in _ v) in Ht by lia.
        destruct (wrapped (loops_h S) h (x + - (1))) as [x'|]; [|discriminate]. apply some_inj in Ht; subst t.
        destruct (Z.eq_dec x' x) as [->|Hne].
        * left. exists i. split; [auto|]. apply pair_ext; lia.
        * right. unfold manhattan. cbn [fst snd]. split; [|lia]. intros j _ Ex. pair_lia Ex.
    - intros i d t Hi Ht. rewrite En. unfold sq_neighbour, c, goal, n in *.
      destruct d as [[|]|[|]]; cbn [fst snd sq_dir_vec sq_axis_vec vneg sq_edge_name] in Ht |- *; swap 1 2; swap 3 4.
      + rewrite !wrapped_in in Ht by lia. apply some_inj in Ht; subst t.
        split; intros Ex; [apply (f_equal fst) in Ex; cbn [fst] in Ex; apply pair_ext; pair_lia Ex|].
        f_equal. apply pair_ext; pair_lia Ex.
      + rewrite (wrapped_in _ v) in Ht by lia.
        destruct (wrapped (loops_h S) h (x + 1)) as [z|]; [|discriminate]. apply some_inj in Ht; subst t.
        split; intros Ex; [discriminate|pair_lia Ex].
      + rewrite !wrapped_in in Ht by lia. apply some_inj in Ht; subst t.
        split; intros Ex; [apply (f_equal fst) in Ex; cbn [fst] in Ex|]; pair_lia Ex.
      + rewrite (wrapped_in _ v) in Ht by lia.
        destruct (wrapped (loops_h S) h (x + - (1))) as [z|]; [|discriminate]. apply some_inj in Ht; subst t.
        split; intros Ex; [discriminate|pair_lia Ex].
    - exists (Backward Vertical), (Backward Vertical). rewrite En.
      unfold sq_neighbour, c, goal. cbn [fst snd sq_dir_vec sq_axis_vec vneg]. rewrite HL. split; [|split].
      + rewrite !wrapped_in by lia. apply f_equal, pair_ext; lia.
      + change (0 + -1) with (-1). rewrite wrapped_last, wrapped_in by lia. apply f_equal, pair_ext; lia.
      + cbn [sq_edge_name]. split; intros Ex; apply (f_equal fst) in Ex; cbn [fst] in Ex; pair_lia Ex.
    - exists (map c (seq 0 (Datatypes.S n))). rewrite En, E0 in *.
      replace (v - 3 + last) with (Z.of_nat n - 1 + last) by (unfold n; lia). auto.
  Qed.
  Lemma ring_v : loops_v S = true -> 5 <= v -> forall x, 0 <= x < h ->
    let cost := fun _ : SqEdgeReference E => 1 in
    let start := (x, 1) in let goal := (x, v - 1) in
    forall est, (forall x, on_board h v x -> ni_distance m x goal = Ok (est x)) ->
    exists p, Returns (astar_round veqb H edges (sg_edges_next m g) target cost est
      (fun x => veqb x goal)) (astar_init veqb H est start) (Some (v - 2, p)) /\
    Route edges (sg_edges_next m g) target cost start [start; (x, 0); goal] 2 goal.
  Proof using All.
    intros HL H5 x Hr cost start goal est Hest.
    replace (v - 2) with (v - 3 + 1) by lia.
    apply (ring_v_cost HL ltac:(lia) x Hr est Hest 1 cost); auto. lia.
  Qed.

  Lemma ring_v_hard : loops_v S = true -> 4 <= v -> forall x, 0 <= x < h ->
    let start := (x, 1) in let goal := (x, v - 1) in let hard := ((x, v - 2), Vertical) in
    forall cost, (forall e, sr_id e = hard -> cost e = 2) -> (forall e, sr_id e <> hard -> cost e = 1) ->
    forall est, (forall x, on_board h v x -> ni_distance m x goal = Ok (est x)) ->
    exists p, Returns (astar_round veqb H edges (sg_edges_next m g) target cost est
      (fun x => veqb x goal)) (astar_init veqb H est start) (Some (v - 1, p)) /\
    Route edges (sg_edges_next m g) target cost start [start; (x, 0); goal] 2 goal.
  Proof using All.
    intros HL H5 x Hr start goal hard cost Hc2 Hc1 est Hest.
    replace (v - 1) with (v - 3 + 2) by lia.
    apply (ring_v_cost HL ltac:(lia) x Hr est Hest 2 cost); auto. lia.
  Qed.
End Ring.
