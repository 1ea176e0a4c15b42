(** * Byte buffers: little-endian reads and writes (encoding/binary.LittleEndian), slices of []byte.
    Bytes are [N] values below 256. [None] = index out of range (a Go panic). *)
From Verif Require Import Base.
Local Open Scope nat_scope.

(** The [k] low bytes of [v], least significant first: binary.LittleEndian.PutUintX. *)
Fixpoint le (k : nat) (v : N) : list N :=
  match k with 0 => [] | S k' => (v mod 256)%N :: le k' (v / 256)%N end.

(** binary.LittleEndian.UintX. *)
Fixpoint unle (l : list N) : N :=
  match l with [] => 0%N | b :: r => (b + 256 * unle r)%N end.

(** copy(buf[off:], bs), panicking when out of range. *)
Definition put (off : nat) (bs : list N) (buf : list N) : option (list N) :=
  if off + length bs <=? length buf
  then Some (firstn off buf ++ bs ++ skipn (off + length bs) buf) else None.

(** buf[off:off+k]. *)
Definition slice (off k : nat) (buf : list N) : option (list N) :=
  if off + k <=? length buf then Some (firstn k (skipn off buf)) else None.

Definition get_le (k off : nat) (buf : list N) : option N :=
  match slice off k buf with None => None | Some bs => Some (unle bs) end.

Definition put_le (k off : nat) (v : N) (buf : list N) : option (list N) := put off (le k v) buf.

Definition bindo {A B} (o : option A) (f : A -> option B) : option B :=
  match o with None => None | Some a => f a end.
Notation "'do' x <- a ; b" := (bindo a (fun x => b)) (at level 200, x pattern, a at level 100, b at level 200).

Lemma nth_error_skipn' {A} n i (l : list A) : nth_error (skipn n l) i = nth_error l (n + i).
Proof. revert l; induction n; intros [|x l]; simpl; auto. destruct i; auto. Qed.

Lemma nth_error_nil' {A} i : nth_error (@nil A) i = None.
Proof. destruct i; auto. Qed.

Lemma nth_error_firstn' {A} n i (l : list A) : nth_error (firstn n l) i = if i <? n then nth_error l i else None.
Proof.
  revert i l; induction n as [|n IH]; intros i l; simpl.
  - destruct i; auto.
  - destruct l; simpl; [rewrite !nth_error_nil'; destruct (i <? S n); auto|]. destruct i; simpl; auto. rewrite IH. 
    change (S i <? S n) with (i <? n). auto.
Qed.

Lemma le_length k v : length (le k v) = k.
Proof. revert v; induction k; intros; simpl; auto. Qed.

Lemma le_bytes k v : Forall (fun b => (b < 256)%N) (le k v).
Proof. revert v; induction k; intros; simpl; constructor; auto. apply N.mod_lt. lia. Qed.

Lemma unle_le k v : unle (le k v) = (v mod 256 ^ N.of_nat k)%N.
Proof.
  revert v; induction k as [|k IH]; intros v; simpl unle.
  - simpl. rewrite N.mod_1_r. auto.
  - simpl le. change (unle ((v mod 256)%N :: le k (v / 256)%N)) with (v mod 256 + 256 * unle (le k (v / 256)))%N. rewrite IH. replace (N.of_nat (S k)) with (N.succ (N.of_nat k)) by lia.
    rewrite N.pow_succ_r'. rewrite N.mod_mul_r; [reflexivity|lia|]. apply N.pow_nonzero; lia.
Qed.

Lemma unle_le_small k v : (v < 256 ^ N.of_nat k)%N -> unle (le k v) = v.
Proof. intros H. rewrite unle_le. apply N.mod_small; auto. Qed.

Lemma unle_lt l : Forall (fun b => (b < 256)%N) l -> (unle l < 256 ^ N.of_nat (length l))%N.
Proof.
  induction 1 as [|b r Hb Hr IH]; simpl length; [simpl; lia|].
  change (unle (b :: r)) with (b + 256 * unle r)%N.
  replace (N.of_nat (S (length r))) with (N.succ (N.of_nat (length r))) by lia. rewrite N.pow_succ_r'. lia.
Qed.

Lemma le_unle l : Forall (fun b => (b < 256)%N) l -> le (length l) (unle l) = l.
Proof.
  induction 1 as [|b r Hb Hr IH]; auto.
  change (le (S (length r)) (b + 256 * unle r)%N = b :: r). cbn [le]. f_equal.
  - rewrite N.mul_comm, N.mod_add by lia. apply N.mod_small; auto.
  - rewrite N.mul_comm, N.div_add by lia. rewrite (N.div_small b) by auto. auto.
Qed.

Lemma put_length off bs buf buf' : put off bs buf = Some buf' -> length buf' = length buf.
Proof.
  unfold put. destruct (Nat.leb_spec (off + length bs) (length buf)); [|discriminate]. intros [= <-].
  rewrite !app_length, firstn_length, skipn_length. lia.
Qed.

Lemma put_ok off bs buf : off + length bs <= length buf -> exists buf', put off bs buf = Some buf' /\ length buf' = length buf.
Proof.
  intros H. unfold put. destruct (Nat.leb_spec (off + length bs) (length buf)); [|lia].
  eexists. split; [reflexivity|]. rewrite !app_length, firstn_length, skipn_length. lia.
Qed.

Lemma put_nth off bs buf buf' i : put off bs buf = Some buf' ->
  nth_error buf' i = if (off <=? i) && (i <? off + length bs) then nth_error bs (i - off) else nth_error buf i.
Proof.
  unfold put. destruct (Nat.leb_spec (off + length bs) (length buf)); [|discriminate]. intros [= <-].
  destruct (Nat.leb_spec off i) as [H1|H1]; simpl.
  - rewrite nth_error_app2 by (rewrite firstn_length; lia). rewrite firstn_length, Nat.min_l by lia.
    destruct (Nat.ltb_spec i (off + length bs)) as [H2|H2].
    + rewrite nth_error_app1 by lia. auto.
    + rewrite nth_error_app2 by lia. rewrite nth_error_skipn'. f_equal. lia.
  - rewrite nth_error_app1 by (rewrite firstn_length; lia). rewrite nth_error_firstn'.
    destruct (Nat.ltb_spec i off); [auto|lia].
Qed.

Lemma slice_nth off k buf bs : slice off k buf = Some bs ->
  length bs = k /\ forall i, i < k -> nth_error bs i = nth_error buf (off + i).
Proof.
  unfold slice. destruct (Nat.leb_spec (off + k) (length buf)); [|discriminate]. intros [= <-]. split.
  - rewrite firstn_length, skipn_length. lia.
  - intros i Hi. rewrite nth_error_firstn'. destruct (Nat.ltb_spec i k); [|lia]. apply nth_error_skipn'.
Qed.

(** A read of exactly the bytes just written. *)
Lemma slice_put_same off bs buf buf' : put off bs buf = Some buf' -> slice off (length bs) buf' = Some bs.
Proof.
  intros H. pose proof (put_length _ _ _ _ H) as HL.
  assert (Ho : off + length bs <= length buf) by (unfold put in H; destruct (Nat.leb_spec (off + length bs) (length buf)); auto; discriminate).
  unfold slice. destruct (Nat.leb_spec (off + length bs) (length buf')); [|lia]. f_equal.
  apply nth_error_ext. intros i. rewrite nth_error_firstn', nth_error_skipn', (put_nth _ _ _ _ _ H).
  destruct (Nat.ltb_spec i (length bs)) as [Hi|Hi].
  - destruct (Nat.leb_spec off (off + i)); [|lia]. destruct (Nat.ltb_spec (off + i) (off + length bs)); [|lia]. simpl. f_equal. lia.
  - symmetry. apply nth_error_None. auto.
Qed.

(** A write elsewhere does not change a read. *)
Lemma slice_put_other off bs buf buf' o k : put off bs buf = Some buf' ->
  o + k <= off \/ off + length bs <= o -> slice o k buf' = slice o k buf.
Proof.
  intros H Hd. pose proof (put_length _ _ _ _ H) as HL. unfold slice. rewrite HL.
  destruct (Nat.leb_spec (o + k) (length buf)); auto. f_equal.
  apply nth_error_ext. intros i. rewrite !nth_error_firstn', !nth_error_skipn', (put_nth _ _ _ _ _ H).
  destruct (Nat.ltb_spec i k) as [Hi|Hi]; auto.
  destruct (Nat.leb_spec off (o + i)), (Nat.ltb_spec (o + i) (off + length bs)); simpl; auto. lia.
Qed.

Lemma get_put_same k off v buf buf' : put_le k off v buf = Some buf' -> get_le k off buf' = Some (v mod 256 ^ N.of_nat k)%N.
Proof.
  unfold put_le, get_le. intros H. apply slice_put_same in H. rewrite le_length in H. rewrite H, unle_le. auto.
Qed.

Lemma get_put_other k off v buf buf' k' o : put_le k off v buf = Some buf' ->
  o + k' <= off \/ off + k <= o -> get_le k' o buf' = get_le k' o buf.
Proof.
  unfold put_le, get_le. intros H Hd. erewrite slice_put_other; eauto. rewrite le_length. auto.
Qed.

Lemma put_le_ok k off v buf : off + k <= length buf -> exists buf', put_le k off v buf = Some buf' /\ length buf' = length buf.
Proof. intros H. apply put_ok. rewrite le_length. auto. Qed.

(** Reading from a concatenation. *)
Lemma slice_app_skip a b off k : slice (length a + off) k (a ++ b) = slice off k b.
Proof.
  unfold slice. rewrite app_length. rewrite skipn_app.
  replace (length a + off - length a) with off by lia. rewrite (skipn_all2 a) by lia. simpl.
  destruct (Nat.leb_spec (length a + off + k) (length a + length b)), (Nat.leb_spec (off + k) (length b)); auto; lia.
Qed.

Lemma slice_app_first a b : slice 0 (length a) (a ++ b) = Some a.
Proof.
  unfold slice. rewrite app_length. destruct (Nat.leb_spec (0 + length a) (length a + length b)); [|lia].
  simpl. rewrite firstn_app, Nat.sub_diag, firstn_all. simpl. rewrite app_nil_r. auto.
Qed.

Lemma slice_app_at a m b : slice (length a) (length m) (a ++ m ++ b) = Some m.
Proof. rewrite <- (Nat.add_0_r (length a)), slice_app_skip. apply slice_app_first. Qed.

Lemma get_le_app_at k v a b : get_le k (length a) (a ++ le k v ++ b) = Some (v mod 256 ^ N.of_nat k)%N.
Proof. unfold get_le. rewrite <- (le_length k v) at 1. rewrite slice_app_at, unle_le. auto. Qed.
