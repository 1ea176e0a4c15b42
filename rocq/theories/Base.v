(** * Shared list-as-array vocabulary.

    Go slices are modelled as Coq lists; [upd i x l] is the assignment
    [l[i] = x] and [nth_error l i] the read [l[i]] ([None] = Go's
    index-out-of-range panic). *)
From Coq Require Export List Arith NArith ZArith Lia Bool Permutation.
From Coq Require Export ZifyBool ZifyNat ZifyN.
Export ListNotations.
Ltac Zify.zify_post_hook ::= Z.div_mod_to_equations.

Fixpoint upd {A} (i : nat) (x : A) (l : list A) : list A :=
  match l, i with
  | [], _ => []
  | _ :: t, O => x :: t
  | h :: t, S i' => h :: upd i' x t
  end.

Section Upd.
  Context {A : Type}.
  Implicit Types (l : list A) (x : A) (i j : nat).

  Lemma upd_length : forall l i x, length (upd i x l) = length l.
  Proof. induction l; destruct i; simpl; intros; auto. Qed.

  Lemma upd_oob : forall l i x, length l <= i -> upd i x l = l.
  Proof. induction l; destruct i; simpl; intros; auto; try lia. f_equal. apply IHl. lia. Qed.

  Lemma nth_error_upd_eq : forall l i x, i < length l -> nth_error (upd i x l) i = Some x.
  Proof. induction l; destruct i; simpl; intros; auto; try lia. apply IHl. lia. Qed.

  Lemma nth_error_upd_neq : forall l i j x, i <> j -> nth_error (upd i x l) j = nth_error l j.
  Proof.
    induction l; destruct i, j; simpl; intros; auto; try lia.
  Qed.

  Lemma nth_error_upd : forall l i j x,
    nth_error (upd i x l) j = if (i =? j) then (if i <? length l then Some x else None) else nth_error l j.
  Proof.
    intros. destruct (Nat.eqb_spec i j).
    - subst. destruct (Nat.ltb_spec j (length l)).
      + apply nth_error_upd_eq; auto.
      + apply nth_error_None. rewrite upd_length. lia.
    - apply nth_error_upd_neq; auto.
  Qed.

  Lemma nth_upd_eq : forall l i x d, i < length l -> nth i (upd i x l) d = x.
  Proof. induction l; destruct i; simpl; intros; auto; try lia. apply IHl. lia. Qed.

  Lemma nth_upd_neq : forall l i j x d, i <> j -> nth j (upd i x l) d = nth j l d.
  Proof. induction l; destruct i, j; simpl; intros; auto; try lia. Qed.

  Lemma upd_same : forall l i x, nth_error l i = Some x -> upd i x l = l.
  Proof. induction l; destruct i; simpl; intros; auto; try congruence. f_equal; auto. Qed.

  Lemma upd_upd_same : forall l i x y, upd i x (upd i y l) = upd i x l.
  Proof. induction l; destruct i; simpl; intros; auto. f_equal; auto. Qed.

  Lemma upd_comm : forall l i j x y, i <> j -> upd i x (upd j y l) = upd j y (upd i x l).
  Proof.
    induction l; destruct i, j; simpl; intros; auto; try lia. f_equal. apply IHl. lia.
  Qed.

  Lemma upd_app_split : forall l i x, i < length l ->
    upd i x l = firstn i l ++ x :: skipn (S i) l.
  Proof. induction l; destruct i; simpl; intros; auto; try lia. f_equal. apply IHl. lia. Qed.

  Lemma nth_error_split' : forall l i x, nth_error l i = Some x ->
    l = firstn i l ++ x :: skipn (S i) l.
  Proof.
    induction l; destruct i; simpl; intros; try congruence. f_equal. apply IHl; auto.
  Qed.

  Lemma nth_error_nth' : forall l i d, i < length l -> nth_error l i = Some (nth i l d).
  Proof. induction l; destruct i; simpl; intros; auto; try lia. apply IHl. lia. Qed.

  Lemma nth_error_Some_lt : forall l i x, nth_error l i = Some x -> i < length l.
  Proof. intros. apply nth_error_Some. congruence. Qed.

  Lemma nth_error_ext : forall l l', (forall i, nth_error l i = nth_error l' i) -> l = l'.
  Proof.
    induction l; destruct l'; intros H; auto.
    - specialize (H 0); discriminate.
    - specialize (H 0); discriminate.
    - f_equal. { specialize (H 0). simpl in H. congruence. }
      apply IHl. intros i. apply (H (S i)).
  Qed.

  (** Swapping two cells. *)
  Definition swap (i j : nat) l : list A :=
    match nth_error l i, nth_error l j with
    | Some a, Some b => upd j a (upd i b l)
    | _, _ => l
    end.

  Lemma swap_length : forall l i j, length (swap i j l) = length l.
  Proof.
    intros. unfold swap. destruct (nth_error l i), (nth_error l j); auto. rewrite !upd_length; auto.
  Qed.

  Lemma swap_nth_error : forall l i j k, i < length l -> j < length l ->
    nth_error (swap i j l) k =
    if k =? j then nth_error l i else if k =? i then nth_error l j else nth_error l k.
  Proof.
    intros. unfold swap.
    destruct (nth_error l i) eqn:Ei; [|apply nth_error_None in Ei; lia].
    destruct (nth_error l j) eqn:Ej; [|apply nth_error_None in Ej; lia].
    rewrite !nth_error_upd, upd_length.
    destruct (Nat.eqb_spec j k), (Nat.eqb_spec k j); try lia.
    { subst k. destruct (Nat.ltb_spec j (length l)); auto; lia. }
    destruct (Nat.eqb_spec i k), (Nat.eqb_spec k i); try lia; auto.
    subst k. destruct (Nat.ltb_spec i (length l)); auto; lia.
  Qed.

  Lemma swap_Permutation : forall l i j, Permutation l (swap i j l).
  Proof.
    intros. destruct (Nat.lt_ge_cases i (length l)) as [Hi|Hi];
      destruct (Nat.lt_ge_cases j (length l)) as [Hj|Hj].
    2-4: unfold swap; destruct (nth_error l i) eqn:Ei; auto; destruct (nth_error l j) eqn:Ej; auto;
      apply nth_error_Some_lt in Ei; apply nth_error_Some_lt in Ej; lia.
    apply Permutation_nth_error. split; [symmetry; apply swap_length|].
    exists (fun k => if k =? j then i else if k =? i then j else k). split.
    - intros x y. destruct (Nat.eqb_spec x j), (Nat.eqb_spec x i), (Nat.eqb_spec y j), (Nat.eqb_spec y i); lia.
    - intros k. rewrite swap_nth_error by auto.
      destruct (k =? j); auto. destruct (k =? i); auto.
  Qed.
End Upd.

Lemma In_nth_error_iff {A} (l : list A) x : In x l <-> exists i, nth_error l i = Some x.
Proof.
  split; [apply In_nth_error|]. intros [i H]. eapply nth_error_In; eauto.
Qed.

Lemma nth_error_repeat' {A} (x : A) n i : nth_error (repeat x n) i = if i <? n then Some x else None.
Proof.
  destruct (Nat.ltb_spec i n).
  - rewrite nth_error_repeat; auto.
  - apply nth_error_None. rewrite repeat_length. lia.
Qed.

Lemma filter_perm {A} (f : A -> bool) l l' : Permutation l l' -> Permutation (filter f l) (filter f l').
Proof.
  induction 1; simpl; auto.
  - destruct (f x); auto.
  - destruct (f x), (f y); auto. constructor.
  - eapply perm_trans; eauto.
Qed.

Lemma filter_app_eq {A} (f : A -> bool) l l' : filter f (l ++ l') = filter f l ++ filter f l'.
Proof. apply filter_app. Qed.

Lemma NoDup_incl_lt {A} (eq_dec : forall x y : A, {x = y} + {x <> y}) (l l' : list A) x :
  NoDup l -> incl l l' -> In x l' -> ~ In x l -> length l < length l'.
Proof.
  intros Hn Hi Hx Hnx.
  assert (length (x :: l) <= length l'); [|simpl in *; lia].
  apply NoDup_incl_length; [constructor; auto|]. intros y [->|Hy]; auto.
Qed.

Lemma NoDup_same_length {A} (l l' : list A) : NoDup l -> NoDup l' ->
  (forall x, In x l <-> In x l') -> length l = length l'.
Proof.
  intros H H' E. apply Nat.le_antisymm; apply NoDup_incl_length; auto; intros x Hx; apply E; auto.
Qed.
