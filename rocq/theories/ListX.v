(** * More list lemmas. *)
From Verif Require Import Base.
Local Open Scope nat_scope.

Lemma NoDup_nth {A} (l : list A) : (forall i j x, nth_error l i = Some x -> nth_error l j = Some x -> i = j) -> NoDup l.
Proof.
  induction l as [|y l IH]; intros H; constructor.
  - intros Hy. apply In_nth_error in Hy. destruct Hy as [n Hn]. specialize (H 0 (S n) y). simpl in H.
    assert (0 = S n) by auto. lia.
  - apply IH. intros i j x Hi Hj. assert (S i = S j) by (apply (H (S i) (S j) x); auto). lia.
Qed.

Lemma map_seq_nth {A} (f : nat -> A) n p : p < n -> nth_error (map f (seq 0 n)) p = Some (f p).
Proof.
  intros. rewrite nth_error_map. rewrite (nth_error_nth' (seq 0 n) p 0) by (rewrite seq_length; auto). simpl. rewrite seq_nth; auto.
Qed.
