(** * Bounds-checked slices, and arrays seen as concatenated segments. *)
From Verif Require Import Base Bytes.
Local Open Scope nat_scope.

(** l[i] = x; [None]: index out of range. *)
Definition wr {A} (i : nat) (x : A) (l : list A) : option (list A) :=
  if i <? length l then Some (upd i x l) else None.
(** a - b on unsigned integers used afterwards as an index or a length: [None] when it would wrap. *)
Definition sub (a b : nat) : option nat := if b <=? a then Some (a - b) else None.
(** l[off : off+len]. *)
Definition sl_get {A} (off len : nat) (l : list A) : option (list A) :=
  if off + len <=? length l then Some (firstn len (skipn off l)) else None.
(** copy(l[off:], xs) with room for all of xs. *)
Definition sl_put {A} (off : nat) (xs l : list A) : option (list A) :=
  if off + length xs <=? length l then Some (firstn off l ++ xs ++ skipn (off + length xs) l) else None.

Section Seg.
Context {A : Type}.
Implicit Types (l P Q S : list A) (x y : A).

Lemma nth_seg P x Q i : i = length P -> nth_error (P ++ x :: Q) i = Some x.
Proof. intros ->. rewrite nth_error_app2 by lia. rewrite Nat.sub_diag. auto. Qed.

Lemma upd_seg P x y Q i : i = length P -> upd i x (P ++ y :: Q) = P ++ x :: Q.
Proof. intros ->. induction P; simpl; auto. f_equal; auto. Qed.

Lemma wr_seg P x y Q i : i = length P -> wr i x (P ++ y :: Q) = Some (P ++ x :: Q).
Proof.
  intros ->. unfold wr. rewrite app_length. simpl. destruct (Nat.ltb_spec (length P) (length P + S (length Q))); [|lia].
  f_equal. apply upd_seg; auto.
Qed.

Lemma firstn_seg P Q i : i = length P -> firstn i (P ++ Q) = P.
Proof. intros ->. rewrite firstn_app, Nat.sub_diag, firstn_all. simpl. apply app_nil_r. Qed.
Lemma skipn_seg P Q i : i = length P -> skipn i (P ++ Q) = Q.
Proof. intros ->. rewrite skipn_app, Nat.sub_diag, skipn_all. auto. Qed.

Lemma get_seg P S Q off len : off = length P -> len = length S -> sl_get off len (P ++ S ++ Q) = Some S.
Proof.
  intros -> ->. unfold sl_get. rewrite !app_length. destruct (Nat.leb_spec (length P + length S) (length P + (length S + length Q))); [|lia].
  rewrite skipn_seg by auto. rewrite firstn_seg by auto. auto.
Qed.

Lemma put_seg P S xs Q off : off = length P -> length xs = length S -> sl_put off xs (P ++ S ++ Q) = Some (P ++ xs ++ Q).
Proof.
  intros -> H. unfold sl_put. rewrite !app_length. destruct (Nat.leb_spec (length P + length xs) (length P + (length S + length Q))); [|lia].
  rewrite firstn_seg by auto. rewrite (app_assoc P S Q), (skipn_seg (P ++ S)); auto. rewrite app_length. lia.
Qed.

Lemma sub_ok a b : b <= a -> sub a b = Some (a - b).
Proof. intros. unfold sub. destruct (Nat.leb_spec b a); auto; lia. Qed.

Lemma split_at l i : i <= length l -> exists P Q, l = P ++ Q /\ length P = i.
Proof. intros H. exists (firstn i l), (skipn i l). split; [symmetry; apply firstn_skipn|]. rewrite firstn_length. lia. Qed.

Lemma split_cons l i : i < length l -> exists P x Q, l = P ++ x :: Q /\ length P = i.
Proof.
  intros H. destruct (nth_error l i) eqn:E; [|apply nth_error_None in E; lia].
  apply nth_error_split in E. destruct E as (P & Q & -> & HP). eauto.
Qed.
Lemma snoc_cases l : l = [] \/ exists l' x, l = l' ++ [x].
Proof. destruct (rev l) as [|x r] eqn:E; [left|right; exists (rev r), x]; rewrite <- (rev_involutive l), E; auto. Qed.
End Seg.

(** ** Consecutive blocks in an array *)
Section Levels.
Context {C : Type}.
Implicit Types Ls : list (list C).
(** Start positions of the levels [Ls] laid out from [b]. *)
Fixpoint pb (b : nat) (Ls : list (list C)) : list nat :=
  match Ls with [] => [] | L :: t => b :: pb (b + length L) t end.
Definition csum (Ls : list (list C)) : nat := length (concat Ls).

Lemma pb_length b Ls : length (pb b Ls) = length Ls.
Proof. revert b; induction Ls; simpl; auto. Qed.
Lemma csum_cons L Ls : csum (L :: Ls) = length L + csum Ls.
Proof. unfold csum. simpl. apply app_length. Qed.
Lemma csum_app Ls Ls' : csum (Ls ++ Ls') = csum Ls + csum Ls'.
Proof. unfold csum. rewrite concat_app. apply app_length. Qed.
Lemma csum_nil : csum [] = 0. Proof. reflexivity. Qed.
Lemma pb_app b Ls Ls' : pb b (Ls ++ Ls') = pb b Ls ++ pb (b + csum Ls) Ls'.
Proof.
  revert b; induction Ls as [|L Ls IH]; intros b; simpl.
  - rewrite csum_nil, Nat.add_0_r. auto.
  - f_equal. rewrite IH, csum_cons. f_equal. f_equal. lia.
Qed.
Lemma nth_after {X} (P : list X) i (Q : list X) : nth_error (P ++ Q) (length P + i) = nth_error Q i.
Proof. rewrite nth_error_app2 by lia. f_equal. lia. Qed.
Lemma wr_after {X} (P : list X) i (x : X) (Q : list X) : wr (length P + i) x (P ++ Q) = option_map (app P) (wr i x Q).
Proof.
  unfold wr. rewrite app_length. destruct (Nat.ltb_spec (length P + i) (length P + length Q)), (Nat.ltb_spec i (length Q)); try lia; auto.
  simpl. f_equal. induction P; simpl; auto. f_equal; auto. apply IHP; lia.
Qed.

Lemma wr_pb0 b Ls v y X : wr (length Ls) v (pb b Ls ++ y :: X) = Some (pb b Ls ++ v :: X).
Proof. apply wr_seg. rewrite pb_length. auto. Qed.
Lemma wr_pb1 b Ls v y z X : wr (length Ls + 1) v (pb b Ls ++ y :: z :: X) = Some (pb b Ls ++ y :: v :: X).
Proof. rewrite <- (pb_length b Ls), wr_after. reflexivity. Qed.

Definition odd_lo (L : list C) : list C := if length L mod 2 =? 1 then firstn 1 L else [].
Definition even_part (L : list C) : list C := if length L mod 2 =? 1 then skipn 1 L else L.
Lemma odd_even L : L = odd_lo L ++ even_part L.
Proof. unfold odd_lo, even_part. destruct (_ =? _); auto. symmetry. apply firstn_skipn. Qed.
Lemma even_part_length L : length (even_part L) = 2 * (length L / 2).
Proof.
  unfold even_part. pose proof (Nat.div_mod_eq (length L) 2). pose proof (Nat.mod_upper_bound (length L) 2 ltac:(lia)).
  destruct (Nat.eqb_spec (length L mod 2) 1); [rewrite skipn_length|]; lia.
Qed.
Lemma odd_lo_length L : length (odd_lo L) = length L mod 2.
Proof.
  unfold odd_lo. pose proof (Nat.mod_upper_bound (length L) 2 ltac:(lia)).
  destruct (Nat.eqb_spec (length L mod 2) 1) as [E|E]; [|cbn [length]; lia]. destruct L; [discriminate|]. rewrite E. auto.
Qed.

End Levels.
Arguments csum_nil : clear implicits.
