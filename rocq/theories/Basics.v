(** * Basics: lemmas about the outcome monad, lists, arrays, loops and iterators. *)

From Verif Require Import Machine Store.
From Coq Require Import ZifyBool ZifyNat FinFun.


(** ** Outcomes *)

Lemma bind_ok : forall A B (x : outcome A) (k : A -> outcome B) b,
  bind x k = Ok b -> exists a, x = Ok a /\ k a = Ok b.
Proof. intros A B [a|f] k b; simpl; intros; eauto. discriminate. Qed.

Lemma wrap_usize_ok : forall m x, 0 <= x < USIZE -> wrap_usize m x = Ok x.
Proof.
  intros m x H. unfold wrap_usize.
  replace ((0 <=? x) && (x <? USIZE)) with true by lia. reflexivity.
Qed.

Lemma usize_add_ok : forall m x y, 0 <= x + y < USIZE -> usize_add m x y = Ok (x + y).
Proof. intros; apply wrap_usize_ok; auto. Qed.
Lemma usize_sub_ok : forall m x y, 0 <= x - y < USIZE -> usize_sub m x y = Ok (x - y).
Proof. intros; apply wrap_usize_ok; auto. Qed.
Lemma usize_mul_ok : forall m x y, 0 <= x * y < USIZE -> usize_mul m x y = Ok (x * y).
Proof. intros; apply wrap_usize_ok; auto. Qed.

Lemma wrap_isize_ok : forall m x, - IMAX1 <= x < IMAX1 -> wrap_isize m x = Ok x.
Proof.
  intros m x H. unfold wrap_isize.
  replace ((- IMAX1 <=? x) && (x <? IMAX1)) with true by lia. reflexivity.
Qed.
Lemma isize_add_ok : forall m x y, - IMAX1 <= x + y < IMAX1 -> isize_add m x y = Ok (x + y).
Proof. intros; apply wrap_isize_ok; auto. Qed.
Lemma isize_sub_ok : forall m x y, - IMAX1 <= x - y < IMAX1 -> isize_sub m x y = Ok (x - y).
Proof. intros; apply wrap_isize_ok; auto. Qed.

Lemma as_usize_nonneg : forall x, 0 <= x < USIZE -> as_usize x = x.
Proof. intros; unfold as_usize; apply Z.mod_small; auto. Qed.
Lemma as_usize_neg : forall x, - USIZE <= x < 0 -> as_usize x = x + USIZE.
Proof.
  intros x H; unfold as_usize. symmetry. apply Z.mod_unique with (q := -1); lia.
Qed.
Lemma as_isize_small : forall x, x < IMAX1 -> as_isize x = x.
Proof. intros; unfold as_isize. replace (x <? IMAX1) with true by lia. reflexivity. Qed.

Lemma USIZE_val : USIZE = 18446744073709551616. Proof. reflexivity. Qed.
Lemma IMAX1_val : IMAX1 = 9223372036854775808. Proof. reflexivity. Qed.

(** ** zrange *)

Lemma zrange_length : forall n, length (zrange n) = Z.to_nat n.
Proof. intros; unfold zrange; rewrite map_length, seq_length; reflexivity. Qed.

Lemma zrange_nth : forall n i, (i < Z.to_nat n)%nat -> nth_error (zrange n) i = Some (Z.of_nat i).
Proof.
  intros n i H. unfold zrange. rewrite nth_error_map.
  assert (E : nth_error (seq 0 (Z.to_nat n)) i = Some i).
  { rewrite (nth_error_nth' _ O) by (rewrite seq_length; auto).
    rewrite seq_nth by auto. reflexivity. }
  rewrite E. reflexivity.
Qed.

Lemma in_zrange : forall n x, In x (zrange n) <-> 0 <= x < n.
Proof.
  intros n x. unfold zrange. rewrite in_map_iff. split.
  - intros (k & <- & H). rewrite in_seq in H. lia.
  - intros H. exists (Z.to_nat x). rewrite in_seq. lia.
Qed.

Lemma zrange_nodup : forall n, NoDup (zrange n).
Proof.
  intros. unfold zrange. apply Injective_map_NoDup.
  - intros a b H; lia.
  - apply seq_NoDup.
Qed.

Lemma zrange_nonpos : forall n, n <= 0 -> zrange n = [].
Proof. intros; unfold zrange. replace (Z.to_nat n) with O by lia. reflexivity. Qed.

Lemma zrange_succ : forall n, 0 <= n -> zrange (n + 1) = zrange n ++ [n].
Proof.
  intros; unfold zrange. replace (Z.to_nat (n + 1)) with (S (Z.to_nat n)) by lia.
  rewrite seq_S, map_app. simpl. do 2 f_equal. lia.
Qed.

(** ** Lists *)

Lemma list_set_length : forall A (l : list A) i x, length (list_set l i x) = length l.
Proof. induction l; destruct i; simpl; intros; auto. Qed.

Lemma nth_error_list_set_eq : forall A (l : list A) i x,
  (i < length l)%nat -> nth_error (list_set l i x) i = Some x.
Proof. induction l; destruct i; simpl; intros; try lia; auto. apply IHl; lia. Qed.

Lemma nth_error_list_set_neq : forall A (l : list A) i j x,
  i <> j -> nth_error (list_set l i x) j = nth_error l j.
Proof.
  induction l; destruct i, j; simpl; intros; auto; try congruence.
Qed.

Lemma nth_list_set_eq : forall A (l : list A) i x d,
  (i < length l)%nat -> nth i (list_set l i x) d = x.
Proof. induction l; destruct i; simpl; intros; try lia; auto. apply IHl; lia. Qed.

Lemma nth_list_set_neq : forall A (l : list A) i j x d,
  i <> j -> nth j (list_set l i x) d = nth j l d.
Proof. induction l; destruct i, j; simpl; intros; auto; congruence. Qed.

Lemma nth_error_ext : forall A (l1 l2 : list A),
  (forall i, nth_error l1 i = nth_error l2 i) -> l1 = l2.
Proof.
  induction l1; destruct l2; intros H; auto.
  - specialize (H O); discriminate.
  - specialize (H O); discriminate.
  - f_equal.
    + specialize (H O). simpl in H. congruence.
    + apply IHl1. intros i. apply (H (S i)).
Qed.

Lemma flat_map_ext_in : forall A B (f g : A -> list B) l,
  (forall x, In x l -> f x = g x) -> flat_map f l = flat_map g l.
Proof.
  induction l; simpl; intros; auto. rewrite H by auto. f_equal. apply IHl; auto.
Qed.

Lemma flat_map_app : forall A B (f : A -> list B) l1 l2,
  flat_map f (l1 ++ l2) = flat_map f l1 ++ flat_map f l2.
Proof. induction l1; simpl; intros; auto. rewrite IHl1, app_assoc; auto. Qed.

Lemma fold_outcome_app : forall S X (f : S -> X -> outcome S) l1 l2 s,
  fold_outcome f (l1 ++ l2) s =
  (let! s' := fold_outcome f l1 s in fold_outcome f l2 s').
Proof.
  induction l1; simpl; intros; auto. destruct (f s a); simpl; auto.
Qed.

(** ** Iterators *)

Section Iter.
  Context {St X : Type} (next : St -> outcome (option X * St)).

  Lemma Consumed_app : forall it l1 it1 l2 it2,
    Consumed next it l1 it1 -> Consumed next it1 l2 it2 -> Consumed next it (l1 ++ l2) it2.
  Proof.
    induction 1; simpl; intros; auto. econstructor; eauto.
  Qed.

  (** An iterator is a function: what it yields is determined. *)
  Lemma Consumed_det : forall it l1 it1, Consumed next it l1 it1 ->
    forall l2 it2, Consumed next it l2 it2 -> length l1 = length l2 -> l1 = l2 /\ it1 = it2.
  Proof.
    induction 1; intros l2' it2' H2 HL; inversion H2; subst; simpl in *; try discriminate; auto.
    rewrite H in H1. inversion H1; subst.
    destruct (IHConsumed _ _ H3) as [-> ->]; auto.
  Qed.

  Lemma Drains_det : forall it l1 l2, Drains next it l1 -> Drains next it l2 -> l1 = l2.
  Proof.
    intros it l1 l2 (a & b & H1 & N1 & _) (c & d & H2 & N2 & _).
    revert l2 c d H2 N2. induction H1; intros.
    - inversion H2; subst; auto. congruence.
    - inversion H2; subst.
      + congruence.
      + rewrite H in H0. inversion H0; subst. f_equal. eapply IHConsumed; eauto.
  Qed.

  Lemma Drains_cons : forall it x it1 l,
    next it = Ok (Some x, it1) -> Drains next it1 l -> Drains next it (x :: l).
  Proof.
    intros it x it1 l H (a & b & H1 & H2 & H3). exists a, b. repeat split; auto.
    econstructor; eauto.
  Qed.
End Iter.

(** ** Loops *)

Section Loop.
  Context {S R : Type} (body : S -> outcome (S + R)).

  (** [body] runs from [s] through [n] further rounds and then ends with [x]. *)
  Inductive Rounds : nat -> S -> outcome R -> Prop :=
  | R_done s r : body s = Ok (inr r) -> Rounds 0 s (Ok r)
  | R_fail s f : body s = Fail f -> Rounds 0 s (Fail f)
  | R_more s s' n x : body s = Ok (inl s') -> Rounds n s' x -> Rounds (Datatypes.S n) s x.

  Fixpoint nat_loop (k : nat) (s : S) : outcome (S + R) :=
    match k with
    | O => Ok (inl s)
    | Datatypes.S k' =>
        match body s with
        | Ok (inl s') => nat_loop k' s'
        | r => r
        end
    end.

  Lemma nat_loop_add : forall a b s,
    nat_loop (a + b) s =
    match nat_loop a s with Ok (inl s') => nat_loop b s' | r => r end.
  Proof.
    induction a; simpl; intros; auto.
    destruct (body s) as [[s'|r]|f]; auto.
  Qed.

  Lemma iter_loop_nat : forall p s, iter_loop body p s = nat_loop (Pos.to_nat p) s.
  Proof.
    induction p; intros s.
    - replace (Pos.to_nat p~1) with (1 + (Pos.to_nat p + Pos.to_nat p))%nat by lia.
      simpl. destruct (body s) as [[s'|r]|f]; auto.
      rewrite nat_loop_add, <- IHp. destruct (iter_loop body p s') as [[s''|r]|f]; auto.
    - replace (Pos.to_nat p~0) with (Pos.to_nat p + Pos.to_nat p)%nat by lia.
      simpl. rewrite nat_loop_add, <- IHp.
      destruct (iter_loop body p s) as [[s''|r]|f]; auto.
    - simpl. destruct (body s) as [[s'|r]|f]; auto.
  Qed.

  Lemma Rounds_nat : forall n s x, Rounds n s x -> forall k, (n < k)%nat ->
    nat_loop k s = match x with Ok r => Ok (inr r) | Fail f => Fail f end.
  Proof.
    induction 1; intros k Hk; destruct k; try lia; simpl; rewrite H; auto.
    apply IHRounds; lia.
  Qed.

  Lemma loop_rounds : forall n s x, Rounds n s x -> Z.of_nat n < 2 ^ 72 -> loop body s = x.
  Proof.
    intros n s x H Hn. unfold loop. rewrite iter_loop_nat.
    rewrite (Rounds_nat _ _ _ H) by lia.
    destruct x; reflexivity.
  Qed.
End Loop.

(** ** Arrays *)

Definition array_wf {A} (a : Array2 A) (h v : Z) : Prop :=
  nrows a = h /\ ncols a = v /\ Z.of_nat (length (cells a)) = h * v.

Lemma flat_index_lt : forall h v x y : Z,
  0 <= x < h -> 0 <= y < v -> 0 <= x * v + y < h * v.
Proof. intros; nia. Qed.

Lemma flat_index_inj : forall v x y x' y' : Z,
  0 <= y < v -> 0 <= y' < v -> 0 <= x -> 0 <= x' ->
  x * v + y = x' * v + y' -> x = x' /\ y = y'.
Proof. intros. assert (x = x') by nia. subst; split; lia. Qed.

Lemma array_get_ok : forall A (a : Array2 A) h v x y,
  array_wf a h v -> 0 <= x < h -> 0 <= y < v ->
  array_get a x y = nth_error (cells a) (Z.to_nat (x * v + y)).
Proof.
  intros A a h v x y (H1 & H2 & H3) Hx Hy. unfold array_get, in_bounds, flat_index.
  rewrite H1, H2.
  replace ((0 <=? x) && (x <? h) && (0 <=? y) && (y <? v)) with true by lia. reflexivity.
Qed.

Lemma array_get_some : forall A (a : Array2 A) h v x y,
  array_wf a h v -> 0 <= x < h -> 0 <= y < v -> exists z, array_get a x y = Some z.
Proof.
  intros. rewrite (array_get_ok _ _ _ _ _ _ H); auto.
  destruct (nth_error (cells a) (Z.to_nat (x * v + y))) eqn:E; eauto.
  apply nth_error_None in E. destruct H as (_ & _ & H).
  pose proof (flat_index_lt h v x y). nia.
Qed.

Lemma array_set_ok : forall A (a : Array2 A) h v x y z,
  array_wf a h v -> 0 <= x < h -> 0 <= y < v ->
  exists a', array_set a x y z = Some a' /\ array_wf a' h v /\
    array_get a' x y = Some z /\
    forall x' y', (x', y') <> (x, y) -> array_get a' x' y' = array_get a x' y'.
Proof.
  intros A a h v x y z W Hx Hy. pose proof W as (H1 & H2 & H3).
  unfold array_set, in_bounds, flat_index. rewrite H1, H2.
  replace ((0 <=? x) && (x <? h) && (0 <=? y) && (y <? v)) with true by lia.
  eexists; split; [reflexivity|].
  assert (W' : array_wf {| nrows := h; ncols := v;
      cells := list_set (cells a) (Z.to_nat (x * v + y)) z |} h v).
  { repeat split; simpl; auto. rewrite list_set_length; auto. }
  split; [exact W'|]. split.
  - rewrite (array_get_ok _ _ _ _ _ _ W'); auto. simpl.
    apply nth_error_list_set_eq. pose proof (flat_index_lt h v x y). nia.
  - intros x' y' N. unfold array_get, in_bounds, flat_index. simpl. rewrite H1, H2.
    destruct ((0 <=? x') && (x' <? h) && (0 <=? y') && (y' <? v)) eqn:B; auto.
    apply nth_error_list_set_neq. intros E. apply N.
    pose proof (flat_index_lt h v x y). pose proof (flat_index_lt h v x' y').
    assert (x = x' /\ y = y') as [-> ->].
    { apply (flat_index_inj v); try lia. }
    reflexivity.
Qed.

Lemma array_uninit_ok : forall A h v, alloc_ok h v = true -> 0 <= h -> 0 <= v ->
  exists a, @array_uninit A h v = Ok a /\ array_wf a h v /\
    forall x y, 0 <= x < h -> 0 <= y < v -> array_get a x y = Some None.
Proof.
  intros A h v H Hh Hv. unfold array_uninit. rewrite H.
  eexists; split; [reflexivity|].
  assert (W : array_wf (mkArray2 h v (repeat (@None A) (Z.to_nat (h * v)))) h v).
  { repeat split; simpl; auto. rewrite repeat_length. nia. }
  split; [exact W|]. intros x y Hx Hy.
  rewrite (array_get_ok _ _ _ _ _ _ W); auto. simpl.
  pose proof (flat_index_lt h v x y Hx Hy).
  rewrite (nth_error_nth' _ None) by (rewrite repeat_length; nia).
  rewrite nth_repeat. reflexivity.
Qed.
