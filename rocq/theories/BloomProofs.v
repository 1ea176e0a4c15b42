From Verif Require Import Base Bytes BloomModel.
Local Open Scope nat_scope.

(** Bit [j] of an array of 64-bit words. *)
Definition bit (a : list N) (j : N) : bool :=
  match nth_error a (N.to_nat (j / 64)) with Some w => N.testbit w (j mod 64) | None => false end.

Definition words (a : list N) : Prop := Forall (fun w => (w < 2 ^ 64)%N) a.

Lemma land63 i : N.land i 63 = (i mod 64)%N.
Proof. change 63%N with (N.ones 6). rewrite N.land_ones. reflexivity. Qed.
Lemma shiftr6 i : N.shiftr i 6 = (i / 64)%N.
Proof. rewrite N.shiftr_div_pow2. reflexivity. Qed.

Lemma land_bit_zero w b : (N.land w (N.shiftl 1 b) =? 0)%N = negb (N.testbit w b).
Proof.
  destruct (N.testbit w b) eqn:E.
  - cbn [negb]. apply N.eqb_neq. intros C. assert (N.testbit (N.land w (N.shiftl 1 b)) b = false) by (rewrite C; apply N.bits_0).
    rewrite N.land_spec, E, N.shiftl_spec_high', N.sub_diag in H by lia. simpl in H. discriminate.
  - cbn [negb]. apply N.eqb_eq. apply N.bits_inj. intros n. rewrite N.land_spec, N.bits_0.
    destruct (N.eq_dec n b) as [->|Hn]; [rewrite E; auto|].
    rewrite N.shiftl_1_l, N.pow2_bits_false by auto. apply andb_false_r.
Qed.

Lemma get_bit_spec a i : (i < 64 * N.of_nat (length a))%N -> get_bit a i = Some (bit a i).
Proof.
  intros H. unfold get_bit, bit. rewrite shiftr6, land63.
  destruct (nth_error a (N.to_nat (i / 64))) eqn:E.
  - rewrite land_bit_zero, negb_involutive. auto.
  - apply nth_error_None in E. assert (i / 64 < N.of_nat (length a))%N by (apply N.div_lt_upper_bound; lia). lia.
Qed.

Lemma lor_bit_lt w b : (w < 2 ^ 64)%N -> (b < 64)%N -> (N.lor w (N.shiftl 1 b) < 2 ^ 64)%N.
Proof.
  intros Hw Hb. rewrite N.shiftl_1_l.
  destruct (N.eq_dec (N.lor w (2 ^ b)) 0) as [->|Hn]; [lia|].
  apply N.log2_lt_pow2; [lia|]. rewrite N.log2_lor. rewrite N.log2_pow2 by lia.
  destruct (N.eq_dec w 0) as [->|]; [simpl; lia|]. apply N.log2_lt_pow2 in Hw; lia.
Qed.

Lemma set_word_spec a i w : nth_error a (N.to_nat (i / 64)) = Some w -> words a ->
  let a' := upd (N.to_nat (i / 64)) (N.lor w (N.shiftl 1 (i mod 64))) a in
  length a' = length a /\ words a' /\ forall j, bit a' j = bit a j || (i =? j)%N.
Proof.
  intros Hw Hok a'. assert (Hi : (i mod 64 < 64)%N) by (apply N.mod_lt; lia).
  split; [apply upd_length|]. split.
  - unfold words, a'. apply Forall_forall. intros x Hx. apply In_nth_error in Hx. destruct Hx as [n Hn].
    unfold words in Hok. rewrite Forall_forall in Hok.
    destruct (Nat.eq_dec n (N.to_nat (i / 64))) as [->|Hne].
    + rewrite nth_error_upd_eq in Hn by (eapply nth_error_Some_lt; eauto). inversion Hn; subst.
      apply lor_bit_lt; auto. apply Hok. eapply nth_error_In; eauto.
    + rewrite nth_error_upd_neq in Hn by auto. apply Hok. eapply nth_error_In; eauto.
  - intros j. unfold bit, a'. destruct (Nat.eq_dec (N.to_nat (j / 64)) (N.to_nat (i / 64))) as [E|E].
    + rewrite E, nth_error_upd_eq by (eapply nth_error_Some_lt; eauto). rewrite Hw.
      rewrite N.lor_spec, N.shiftl_1_l, N.pow2_bits_eqb. f_equal.
      pose proof (N.div_mod i 64). pose proof (N.div_mod j 64).
      destruct (N.eqb_spec (i mod 64) (j mod 64)), (N.eqb_spec i j); auto; subst; try congruence; lia.
    + rewrite nth_error_upd_neq by auto. destruct (N.eqb_spec i j) as [->|]; [congruence|]. rewrite orb_false_r. auto.
Qed.

Lemma set_bit_spec a i : (i < 64 * N.of_nat (length a))%N -> words a ->
  exists a', set_bit a i = Some a' /\ get_and_set_bit a i = Some (a', bit a i) /\
   length a' = length a /\ words a' /\ forall j, bit a' j = bit a j || (i =? j)%N.
Proof.
  intros H Hok. unfold set_bit, get_and_set_bit. rewrite shiftr6, land63.
  destruct (nth_error a (N.to_nat (i / 64))) eqn:E.
  - pose proof (set_word_spec a i n E Hok). eexists. split; [reflexivity|]. split; auto.
    rewrite land_bit_zero, negb_involutive. unfold bit. rewrite E. auto.
  - apply nth_error_None in E. assert (i / 64 < N.of_nat (length a))%N by (apply N.div_lt_upper_bound; lia). lia.
Qed.

(** Counting a word's bits must not be unfolded by tactics. *)
Lemma filter_map_len {A B} (g : A -> B) f l : length (filter f (map g l)) = length (filter (fun x => f (g x)) l).
Proof. induction l; simpl; auto. destruct (f (g a)); simpl; auto. Qed.
Lemma ones_count_def0 w : ones_count w = N.of_nat (length (filter (fun j => N.testbit w (N.of_nat j)) (seq 0 64))).
Proof. unfold ones_count. rewrite filter_map_len. exact eq_refl. Qed.
Global Opaque ones_count.

(** ** Counting *)
Definition ones (a : list N) : nat := length (filter (fun j => bit a (N.of_nat j)) (seq 0 (64 * length a))).

Lemma filter_ext_len {A} (f g : A -> bool) l : (forall x, In x l -> f x = g x) -> length (filter f l) = length (filter g l).
Proof. intros H. erewrite filter_ext_in; eauto. Qed.

Lemma count_acc (oc : N -> N) a : forall c, fold_left (fun c v => c + oc v)%N a c = (c + fold_left (fun c v => c + oc v) a 0)%N.
Proof.
  induction a as [|w a IH]; intros c; cbn [fold_left]; [lia|]. rewrite IH, (IH (0 + oc w)%N). lia.
Qed.

Lemma fold_count_cons (oc : N -> N) w a :
  fold_left (fun c v => c + oc v)%N (w :: a) 0%N = (oc w + fold_left (fun c v => c + oc v) a 0)%N.
Proof. cbn [fold_left]. rewrite count_acc. lia. Qed.

Lemma count_cons w a : count_bits_set (w :: a) = (ones_count w + count_bits_set a)%N.
Proof. exact (fold_count_cons ones_count w a). Qed.

Lemma ones_count_def w : ones_count w = N.of_nat (length (filter (fun j => N.testbit w (N.of_nat j)) (seq 0 64))).
Proof. apply ones_count_def0. Qed.

Lemma bit_cons w a j : bit (w :: a) j = if (j <? 64)%N then N.testbit w j else bit a (j - 64).
Proof.
  unfold bit. destruct (N.ltb_spec j 64).
  - rewrite N.div_small, N.mod_small by auto. reflexivity.
  - replace (j / 64)%N with (1 + (j - 64) / 64)%N.
    2:{ replace j with (1 * 64 + (j - 64))%N at 2 by lia. rewrite N.div_add_l by lia. auto. }
    replace (N.to_nat (1 + (j - 64) / 64)) with (S (N.to_nat ((j - 64) / 64))) by lia. simpl.
    replace (j mod 64)%N with ((j - 64) mod 64)%N; auto.
    replace j with ((j - 64) + 1 * 64)%N at 2 by lia. rewrite N.mod_add by lia. auto.
Qed.

Lemma split_count K n (f : nat -> bool) :
  length (filter f (seq 0 (K + n))) = length (filter f (seq 0 K)) + length (filter (fun x => f (x + K)) (seq 0 n)).
Proof.
  rewrite seq_app, filter_app, app_length. f_equal.
  assert (H : forall s, map (fun j => j + K) (seq s n) = seq (s + K) n).
  { induction n; intros s; simpl; auto. rewrite IHn. f_equal. }
  rewrite <- H. apply filter_map_len.
Qed.

Lemma ones_cons w a : ones (w :: a) = length (filter (fun j => N.testbit w (N.of_nat j)) (seq 0 64)) + ones a.
Proof.
  unfold ones. change (length (w :: a)) with (S (length a)). rewrite <- (Nat.add_1_l (length a)), Nat.mul_add_distr_l, Nat.mul_1_r.
  rewrite split_count. apply f_equal2.
  - apply filter_ext_len. intros x Hx. apply in_seq in Hx. rewrite bit_cons. destruct (N.ltb_spec (N.of_nat x) 64); auto; lia.
  - apply filter_ext_len. intros x Hx. rewrite bit_cons. destruct (N.ltb_spec (N.of_nat (x + 64)) 64); [lia|]. f_equal. lia.
Qed.

Lemma count_ones a : count_bits_set a = N.of_nat (ones a).
Proof.
  induction a as [|w a IH]; [reflexivity|]. rewrite count_cons, IH, ones_cons, Nat2N.inj_add, ones_count_def. exact eq_refl.
Qed.

Lemma filter_len_le {A} (f : A -> bool) l : length (filter f l) <= length l.
Proof. induction l; simpl; auto. destruct (f a); simpl; lia. Qed.

Lemma ones_bound a : ones a <= 64 * length a.
Proof.
  unfold ones. etransitivity; [apply filter_len_le|]. rewrite seq_length. lia.
Qed.

Lemma ones_zero a j : bit a j = true -> 0 < ones a.
Proof.
  intros H. unfold ones. assert (Hj : (j < 64 * N.of_nat (length a))%N).
  { unfold bit in H. destruct (nth_error a (N.to_nat (j / 64))) eqn:E; [|discriminate].
    apply nth_error_Some_lt in E. pose proof (N.div_mod j 64). pose proof (N.mod_lt j 64). lia. }
  assert (In (N.to_nat j) (filter (fun j => bit a (N.of_nat j)) (seq 0 (64 * length a)))).
  { apply filter_In. rewrite N2Nat.id. split; auto. apply in_seq. lia. }
  destruct (filter _ _); simpl in *; [tauto|lia].
Qed.

(** ** Well-formed filters *)
Record wfB (f : bloom) : Prop := {
  wb_cap : bf_cap f = (64 * N.of_nat (length (bf_bits f)))%N;
  wb_pos : 0 < length (bf_bits f);
  wb_len : (N.of_nat (length (bf_bits f)) < 2 ^ 31)%N;
  wb_words : words (bf_bits f);
  wb_hashes : (1 <= bf_hashes f < 65535)%N;
  wb_seed : (bf_seed f < 2 ^ 64)%N;
  wb_count : bf_dirty f = false -> bf_nset f = count_bits_set (bf_bits f);
}.

(** The i-th index probed for the hash pair (h0,h1). *)
Definition index_of (f : bloom) (h0 h1 i : N) : N := (((h0 + i * h1) mod 2 ^ 64) / 2 mod bf_cap f)%N.

Lemma hash_index_spec f h0 h1 i : wfB f ->
  hash_index f h0 h1 i = Some (index_of f h0 h1 i) /\ (index_of f h0 h1 i < 64 * N.of_nat (length (bf_bits f)))%N.
Proof.
  intros []. unfold hash_index, index_of, w64. rewrite wb_cap0.
  destruct (N.eqb_spec (64 * N.of_nat (length (bf_bits f))) 0); [lia|].
  split; [|apply N.mod_lt; auto]. rewrite N.shiftr_div_pow2. reflexivity.
Qed.

Lemma u16_next_small i : (i < 65535)%N -> u16_next i = (i + 1)%N.
Proof. intros. unfold u16_next. apply N.mod_small. lia. Qed.

Lemma update_loop_spec f h0 h1 : wfB f -> forall fuel i a n,
  (1 <= i <= bf_hashes f + 1)%N -> N.to_nat (bf_hashes f + 2 - i) <= fuel -> words a -> length a = length (bf_bits f) ->
  exists a' n', update_loop fuel f h0 h1 i a n = Some (a', n') /\ words a' /\ length a' = length a /\
    forall j, bit a' j = true <-> bit a j = true \/ exists i', (i <= i' <= bf_hashes f)%N /\ index_of f h0 h1 i' = j.
Proof.
  intros W. induction fuel as [|fu IH]; intros i a n Hi Hf Hw Hl; simpl.
  { exfalso. lia. }
  destruct (N.leb_spec i (bf_hashes f)) as [Hle|Hgt].
  2:{ exists a, n. split; auto. split; auto. split; auto. intros j. split; auto. intros [?|(i' & ? & _)]; auto. lia. }
  destruct (hash_index_spec f h0 h1 i W) as [-> Hb].
  pose proof (wb_hashes f W). rewrite u16_next_small by lia.
  rewrite get_bit_spec by lia. destruct (bit a (index_of f h0 h1 i)) eqn:E.
  - destruct (IH (i + 1)%N a n) as (a' & n' & H1 & H2 & H3 & H4); auto; try lia.
    exists a', n'. do 3 (split; auto). intros j. rewrite H4. split.
    + intros [?|(i' & ? & ?)]; auto. right. exists i'. split; auto. lia.
    + intros [?|(i' & ? & ?)]; auto. destruct (N.eq_dec i' i) as [->|]; [left; congruence|]. right. exists i'. split; auto. lia.
  - destruct (set_bit_spec a (index_of f h0 h1 i)) as (a1 & -> & _ & L1 & W1 & B1); auto; [lia|].
    destruct (IH (i + 1)%N a1 (w64 (n + 1))) as (a' & n' & H1 & H2 & H3 & H4); auto; try lia.
    exists a', n'. split; auto. split; auto. split; [lia|]. intros j. rewrite H4, B1, orb_true_iff, N.eqb_eq. split.
    + intros [[?|?]|(i' & ? & ?)]; auto; right; [exists i|exists i']; split; auto; lia.
    + intros [?|(i' & ? & ?)]; auto. destruct (N.eq_dec i' i) as [->|]; [left; auto|]. right. exists i'. split; auto. lia.
Qed.

Lemma qu_loop_spec f h0 h1 : wfB f -> forall fuel i a ex n,
  (1 <= i <= bf_hashes f + 1)%N -> N.to_nat (bf_hashes f + 2 - i) <= fuel -> words a -> length a = length (bf_bits f) ->
  exists a' ex' n', qu_loop fuel f h0 h1 i a ex n = Some (a', ex', n') /\ words a' /\ length a' = length a /\
    (forall j, bit a' j = true <-> bit a j = true \/ exists i', (i <= i' <= bf_hashes f)%N /\ index_of f h0 h1 i' = j) /\
    ((ex = true /\ forall i', (i <= i' <= bf_hashes f)%N -> bit a (index_of f h0 h1 i') = true) <-> ex' = true).
Proof.
  intros W. induction fuel as [|fu IH]; intros i a ex n Hi Hf Hw Hl; simpl.
  { exfalso. lia. }
  destruct (N.leb_spec i (bf_hashes f)) as [Hle|Hgt].
  2:{ exists a, ex, n. do 3 (split; auto). split. - intros j. split; auto. intros [?|(i' & ? & _)]; auto. lia. - split; [tauto|]. intros; split; auto. intros; lia. }
  destruct (hash_index_spec f h0 h1 i W) as [-> Hb].
  pose proof (wb_hashes f W). rewrite u16_next_small by lia.
  destruct (set_bit_spec a (index_of f h0 h1 i)) as (a1 & _ & -> & L1 & W1 & B1); auto; [lia|].
  destruct (IH (i + 1)%N a1 (ex && bit a (index_of f h0 h1 i)) (if bit a (index_of f h0 h1 i) then n else (n + 1)%N))
    as (a' & ex' & n' & H1 & H2 & H3 & H4 & H5); auto; try lia.
  exists a', ex', n'. split; auto. split; auto. split; [lia|]. split.
  - intros j. rewrite H4, B1, orb_true_iff, N.eqb_eq. split.
    + intros [[?|?]|(i' & ? & ?)]; auto; right; [exists i|exists i']; split; auto; lia.
    + intros [?|(i' & ? & ?)]; auto. destruct (N.eq_dec i' i) as [->|]; [left; auto|]. right. exists i'. split; auto. lia.
  - rewrite <- H5. split.
    + intros [-> Hall]. split; [rewrite Hall; auto; lia|]. intros i' Hi'. rewrite B1, Hall by lia. auto.
    + intros [He Hall]. apply andb_true_iff in He. destruct He as [-> He]. split; auto. intros i' Hi'.
      destruct (N.eq_dec i' i) as [->|]; auto. specialize (Hall i'). rewrite B1 in Hall.
      destruct (N.eqb_spec (index_of f h0 h1 i) (index_of f h0 h1 i')) as [<-|]; auto. rewrite orb_false_r in Hall. apply Hall. lia.
Qed.

Lemma query_loop_spec f h0 h1 : wfB f -> forall fuel i,
  (1 <= i <= bf_hashes f + 1)%N -> N.to_nat (bf_hashes f + 2 - i) <= fuel ->
  exists b, query_loop fuel f h0 h1 i = Some b /\
    (b = true <-> forall i', (i <= i' <= bf_hashes f)%N -> bit (bf_bits f) (index_of f h0 h1 i') = true).
Proof.
  intros W. induction fuel as [|fu IH]; intros i Hi Hf; simpl.
  { exfalso. lia. }
  destruct (N.leb_spec i (bf_hashes f)) as [Hle|Hgt].
  2:{ exists true. split; auto. split; auto. intros _ i' ?. lia. }
  destruct (hash_index_spec f h0 h1 i W) as [-> Hb].
  pose proof (wb_hashes f W). rewrite u16_next_small by lia.
  rewrite get_bit_spec by lia. destruct (bit (bf_bits f) (index_of f h0 h1 i)) eqn:E.
  - destruct (IH (i + 1)%N) as (b & H1 & H2); auto; try lia. exists b. split; auto. rewrite H2. split.
    + intros Hall i' Hi'. destruct (N.eq_dec i' i) as [->|]; auto. apply Hall. lia.
    + intros Hall i' Hi'. apply Hall. lia.
  - exists false. split; auto. split; [discriminate|]. intros Hall. rewrite Hall in E by lia. discriminate.
Qed.

Lemma bits_used_spec f : wfB f -> let f' := fst (bits_used f) in
  wfB f' /\ snd (bits_used f) = N.of_nat (ones (bf_bits f)) /\ bf_bits f' = bf_bits f /\ bf_seed f' = bf_seed f /\
  bf_hashes f' = bf_hashes f /\ bf_cap f' = bf_cap f.
Proof.
  intros W. pose proof W as []. unfold bits_used. destruct (bf_dirty f) eqn:E; simpl.
  - split; [constructor; cbn [bf_seed bf_hashes bf_dirty bf_cap bf_nset bf_bits bf_reset]; auto|]. split; [apply count_ones|auto].
  - split; auto. split; [|auto]. rewrite wb_count0 by auto. apply count_ones.
Qed.

Definition covered (f : bloom) (h0 h1 : N) : Prop :=
  forall i, (1 <= i <= bf_hashes f)%N -> bit (bf_bits f) (index_of f h0 h1 i) = true.

Lemma internal_query_spec f h0 h1 : wfB f ->
  exists f' b, internal_query f h0 h1 = Some (f', b) /\ wfB f' /\ bf_bits f' = bf_bits f /\ bf_seed f' = bf_seed f /\
    bf_hashes f' = bf_hashes f /\ bf_cap f' = bf_cap f /\ (b = true <-> covered f h0 h1).
Proof.
  intros W. unfold internal_query, is_empty.
  destruct (bits_used_spec f W) as (W' & Hc & E1 & E2 & E3 & E4).
  destruct (bits_used f) as [f' c]. cbn [fst snd] in *.
  assert (Hidx : forall i, index_of f' h0 h1 i = index_of f h0 h1 i) by (intros; unfold index_of; rewrite E4; auto).
  destruct (N.eqb_spec c 0) as [Hz|Hz].
  - exists f', false. do 6 (split; auto). split; [discriminate|]. intros Hcov. exfalso.
    pose proof (wb_hashes f W). specialize (Hcov 1%N). apply ones_zero in Hcov; lia.
  - destruct (query_loop_spec f' h0 h1 W' (hash_fuel f') 1) as (b & -> & Hb).
    + pose proof (wb_hashes f' W'). lia.
    + unfold hash_fuel. lia.
    + exists f', b. do 6 (split; auto). rewrite Hb. unfold covered. rewrite E1, E3.
      split; intros H i Hi; specialize (H i Hi); rewrite Hidx in *; auto.
Qed.

Lemma internal_update_spec f h0 h1 : wfB f ->
  exists f', internal_update f h0 h1 = Some f' /\ wfB f' /\ bf_seed f' = bf_seed f /\
    bf_hashes f' = bf_hashes f /\ bf_cap f' = bf_cap f /\ length (bf_bits f') = length (bf_bits f) /\
    forall j, bit (bf_bits f') j = true <-> bit (bf_bits f) j = true \/ exists i, (1 <= i <= bf_hashes f)%N /\ index_of f h0 h1 i = j.
Proof.
  intros W. unfold internal_update. pose proof W as [].
  destruct (update_loop_spec f h0 h1 W (hash_fuel f) 1 (bf_bits f) (bf_nset f)) as (a & n & -> & H1 & H2 & H3); auto; try (unfold hash_fuel; lia).
  eexists. split; [reflexivity|]. simpl. split; [|auto 10].
  constructor; cbn [bf_seed bf_hashes bf_dirty bf_cap bf_nset bf_bits bf_reset]; auto; try lia; try discriminate.
Qed.

Lemma internal_qu_spec f h0 h1 : wfB f ->
  exists f' ex, internal_query_and_update f h0 h1 = Some (f', ex) /\ wfB f' /\ bf_seed f' = bf_seed f /\
    bf_hashes f' = bf_hashes f /\ bf_cap f' = bf_cap f /\ length (bf_bits f') = length (bf_bits f) /\
    (forall j, bit (bf_bits f') j = true <-> bit (bf_bits f) j = true \/ exists i, (1 <= i <= bf_hashes f)%N /\ index_of f h0 h1 i = j) /\
    (ex = true <-> covered f h0 h1).
Proof.
  intros W. unfold internal_query_and_update. pose proof W as [].
  destruct (qu_loop_spec f h0 h1 W (hash_fuel f) 1 (bf_bits f) true 0) as (a & ex & n & -> & H1 & H2 & H3 & H4); auto; try (unfold hash_fuel; lia).
  eexists; exists ex. split; [reflexivity|]. simpl. split; [|do 5 (split; auto); unfold covered; rewrite <- H4; tauto].
  constructor; cbn [bf_seed bf_hashes bf_dirty bf_cap bf_nset bf_bits bf_reset]; auto; try lia; try discriminate.
Qed.

(** ** Set operations *)
Lemma union_with_spec : forall t s, length t = length s -> words t -> words s ->
  exists r, union_with t s = Some r /\ length r = length t /\ words r /\ forall j, bit r j = bit t j || bit s j.
Proof.
  induction t as [|x t IH]; intros [|y s] Hl Ht Hs; try discriminate; simpl.
  - exists []. repeat split; auto. intros j. unfold bit. destruct (N.to_nat (j / 64)); auto.
  - inversion Ht; inversion Hs; subst. destruct (IH s) as (r & -> & L & W & B); auto.
    exists (N.lor x y :: r). split; auto. split; [simpl; auto|]. split.
    + constructor; auto. destruct (N.eq_dec (N.lor x y) 0) as [->|]; [lia|].
      apply N.log2_lt_pow2; [lia|]. rewrite N.log2_lor. 
      assert (forall z, (z < 2 ^ 64)%N -> (N.log2 z < 64)%N).
      { intros z Hz. destruct (N.eq_dec z 0) as [->|]; [simpl; lia|]. apply N.log2_lt_pow2; lia. }
      apply N.max_lub_lt; auto.
    + intros j. rewrite !bit_cons. destruct (j <? 64)%N; auto. apply N.lor_spec.
Qed.

Lemma intersect_with_spec : forall t s, length t = length s -> words t -> words s ->
  exists r, intersect_with t s = Some r /\ length r = length t /\ words r /\ forall j, bit r j = bit t j && bit s j.
Proof.
  induction t as [|x t IH]; intros [|y s] Hl Ht Hs; try discriminate; simpl.
  - exists []. repeat split; auto. intros j. unfold bit. destruct (N.to_nat (j / 64)); auto.
  - inversion Ht; inversion Hs; subst. destruct (IH s) as (r & -> & L & W & B); auto.
    exists (N.land x y :: r). split; auto. split; [simpl; auto|]. split.
    + constructor; auto. destruct (N.eq_dec (N.land x y) 0) as [->|]; [lia|].
      apply N.log2_lt_pow2; [lia|]. eapply N.le_lt_trans; [apply N.log2_land|].
      assert (forall z, (z < 2 ^ 64)%N -> (N.log2 z < 64)%N).
      { intros z Hz. destruct (N.eq_dec z 0) as [->|]; [simpl; lia|]. apply N.log2_lt_pow2; lia. }
      apply N.min_lt_iff. auto.
    + intros j. rewrite !bit_cons. destruct (j <? 64)%N; auto. apply N.land_spec.
Qed.

Lemma invert_spec : forall a, words a -> length (invert_bits a) = length a /\ words (invert_bits a) /\
  forall j, (j < 64 * N.of_nat (length a))%N -> bit (invert_bits a) j = negb (bit a j).
Proof.
  intros a Ha. split; [apply map_length|]. split.
  - unfold words, invert_bits in *. rewrite Forall_map. eapply Forall_impl; [|exact Ha]. intros w Hw. cbv beta in *.
    destruct (N.eq_dec (N.lxor w (N.ones 64)) 0) as [->|]; [lia|].
    apply N.log2_lt_pow2; [lia|]. eapply N.le_lt_trans; [apply N.log2_lxor|].
    apply N.max_lub_lt; [|vm_compute; auto]. destruct (N.eq_dec w 0) as [->|]; [simpl; lia|]. apply N.log2_lt_pow2; lia.
  - intros j Hj. unfold bit, invert_bits. rewrite nth_error_map.
    destruct (nth_error a (N.to_nat (j / 64))) eqn:E; simpl.
    + rewrite N.lxor_spec, N.ones_spec_low by (apply N.mod_lt; lia). apply xorb_true_r.
    + apply nth_error_None in E. assert (j / 64 < N.of_nat (length a))%N by (apply N.div_lt_upper_bound; lia). lia.
Qed.

Lemma compatible_spec f g : compatible f g = true <-> bf_seed f = bf_seed g /\ bf_hashes f = bf_hashes g /\ bf_cap f = bf_cap g.
Proof. unfold compatible. rewrite !andb_true_iff, !N.eqb_eq. tauto. Qed.

Lemma bit_zeros {A} (l : list A) j : bit (map (fun _ => 0%N) l) j = false.
Proof. unfold bit. rewrite nth_error_map. destruct (nth_error l _); simpl; auto. Qed.

Lemma reset_spec f : wfB f -> wfB (bf_reset f).
Proof.
  intros []. constructor; cbn [bf_seed bf_hashes bf_dirty bf_cap bf_nset bf_bits bf_reset]; rewrite ?map_length; auto.
  - unfold words. rewrite Forall_map. apply Forall_forall. intros. lia.
  - intros _. rewrite count_ones. unfold ones. rewrite (filter_ext_in _ (fun _ => false)).
    + clear. induction (seq _ _); auto.
    + intros. apply bit_zeros.
Qed.

Lemma round_capacity_spec n : let c := round_capacity n in exists m, c = (64 * m)%N /\ (n <= c < n + 64)%N.
Proof.
  cbv zeta. unfold round_capacity. exists ((n + 63) / 64)%N.
  assert (N.ldiff (n + 63) 63 = 64 * ((n + 63) / 64))%N.
  { change 63%N with (N.ones 6) at 2. rewrite N.ldiff_ones_r, N.shiftl_mul_pow2, N.shiftr_div_pow2.
    change (2 ^ 6)%N with 64%N. lia. }
  rewrite H. split; auto. pose proof (N.div_mod (n + 63) 64). pose proof (N.mod_lt (n + 63) 64). lia.
Qed.

Lemma bit_repeat0 n j : bit (repeat 0%N n) j = false.
Proof.
  unfold bit. destruct (nth_error (repeat 0%N n) _) eqn:E; auto.
  apply nth_error_In, repeat_spec in E. subst. apply N.bits_0.
Qed.

Lemma new_bloom_spec nb nh seed : (1 <= nb <= max_bits)%N -> (1 <= nh < 65535)%N -> (seed < 2 ^ 64)%N ->
  exists f, new_bloom nb nh seed = Some f /\ wfB f /\ bf_seed f = seed /\ bf_hashes f = nh /\
    bf_cap f = (64 * ((nb + 63) / 64))%N /\ forall j, bit (bf_bits f) j = false.
Proof.
  intros H1 H2 H3. unfold new_bloom.
  destruct (N.eqb_spec nb 0); [lia|]. destruct (N.eqb_spec nh 0); [lia|]. destruct (N.ltb_spec max_bits nb); [lia|].
  assert (Hc : round_capacity nb = (64 * ((nb + 63) / 64))%N).
  { unfold round_capacity. change 63%N with (N.ones 6) at 2. rewrite N.ldiff_ones_r, N.shiftl_mul_pow2, N.shiftr_div_pow2.
    change (2 ^ 6)%N with 64%N. lia. }
  eexists. split; [reflexivity|]. cbn [bf_seed bf_hashes bf_dirty bf_cap bf_nset bf_bits]. rewrite Hc.
  replace (64 * ((nb + 63) / 64) / 64)%N with ((nb + 63) / 64)%N by (rewrite N.mul_comm, N.div_mul; lia).
  split; [|split; [auto|split; [auto|split; [auto|intros; apply bit_repeat0]]]].
  constructor; cbn [bf_seed bf_hashes bf_dirty bf_cap bf_nset bf_bits bf_reset]; rewrite ?repeat_length; auto; try lia.
  - assert ((nb + 63) / 64 < 2 ^ 31)%N by (apply N.div_lt_upper_bound; unfold max_bits in *; lia). lia.
  - apply Forall_forall. intros x Hx. apply repeat_spec in Hx. subst. lia.
  - intros _. rewrite count_ones. unfold ones. rewrite (filter_ext_in _ (fun _ => false)).
    + clear. induction (seq _ _); auto.
    + intros. apply bit_repeat0.
Qed.

(** ** Serialization *)
Lemma get_words_other n off k o v b b' : put_le k o v b = Some b' -> o + k <= off -> get_words n off b' = get_words n off b.
Proof.
  revert off. induction n as [|n IH]; intros off Hp Ho; simpl; auto.
  rewrite (get_put_other _ _ _ _ _ 8 off Hp) by lia. rewrite IH by (auto; lia). auto.
Qed.

Lemma put_words_spec : forall ws off b, off + 8 * length ws <= length b -> words ws ->
  exists b', put_words off ws b = Some b' /\ length b' = length b /\ get_words (length ws) off b' = Some ws /\
    forall k o, o + k <= off -> get_le k o b' = get_le k o b.
Proof.
  induction ws as [|w ws IH]; intros off b Hl Hw; simpl.
  - exists b. auto.
  - inversion Hw; subst. simpl in Hl. destruct (put_le_ok 8 off w b) as (b1 & E1 & L1); [lia|]. rewrite E1. simpl.
    destruct (IH (off + 8) b1) as (b2 & E2 & L2 & G2 & O2); auto; [lia|].
    exists b2. split; auto. split; [lia|]. split.
    + rewrite O2 by lia. rewrite (get_put_same _ _ _ _ _ E1). simpl bindo.
      rewrite G2. simpl. rewrite N.mod_small by auto. auto.
    + intros k o Ho. rewrite O2 by lia. apply (get_put_other _ _ _ _ _ k o E1). lia.
Qed.

Ltac step_put b' :=
  match goal with |- context [bindo (put_le ?k ?o ?v ?b) _] =>
    let E := fresh "E" in let L := fresh "L" in
    destruct (put_le_ok k o v b) as (b' & E & L); [lia|]; rewrite E; cbn [bindo] end.
Ltac read_back :=
  repeat match goal with
  | E : put_le ?k ?o ?v ?b = Some ?b' |- context [get_le ?k ?o ?b'] => rewrite (get_put_same _ _ _ _ _ E)
  | E : put_le ?k ?o ?v ?b = Some ?b' |- context [get_le ?k' ?o' ?b'] => rewrite (get_put_other _ _ _ _ _ k' o' E) by lia
  end.

Lemma ones_lt_2_64 a : (N.of_nat (length a) < 2 ^ 31)%N -> (N.of_nat (ones a) < 2 ^ 40)%N.
Proof. intros H. pose proof (ones_bound a). lia. Qed.

Lemma bits_ext a b : length a = length b -> words a -> words b -> (forall j, bit a j = bit b j) -> a = b.
Proof.
  revert b. induction a as [|x a IH]; intros [|y b] Hl Ha Hb H; try discriminate; auto.
  inversion Ha; inversion Hb; subst. f_equal.
  - apply N.bits_inj. intros n. destruct (N.ltb_spec n 64).
    + specialize (H n). rewrite !bit_cons in H. destruct (N.ltb_spec n 64); [auto|lia].
    + assert (forall z, (z < 2 ^ 64)%N -> N.testbit z n = false) as F.
      { intros z Hz. destruct (N.eq_dec z 0) as [->|]; [apply N.bits_0|]. apply N.bits_above_log2.
        apply N.log2_lt_pow2 in Hz; lia. }
      rewrite !F; auto.
  - apply IH; auto. intros j. specialize (H (j + 64)%N). rewrite !bit_cons in H.
    destruct (N.ltb_spec (j + 64) 64); [lia|]. replace (j + 64 - 64)%N with j in H by lia. auto.
Qed.

Lemma ones_zero_repeat a : words a -> ones a = 0 -> a = repeat 0%N (length a).
Proof.
  intros W H. apply bits_ext; auto.
  - rewrite repeat_length. auto.
  - apply Forall_forall. intros x Hx. apply repeat_spec in Hx. subst. lia.
  - intros j. rewrite bit_repeat0. destruct (bit a j) eqn:E; auto. apply ones_zero in E. lia.
Qed.

Lemma serde_spec f : wfB f -> exists b f', to_slice f = Some b /\ from_slice b = Some f' /\ wfB f' /\
  bf_seed f' = bf_seed f /\ bf_hashes f' = bf_hashes f /\ bf_cap f' = bf_cap f /\ bf_bits f' = bf_bits f.
Proof.
  intros W. destruct (bits_used_spec f W) as (W' & Hc & E1 & E2 & E3 & E4).
  unfold to_slice, is_empty. destruct (bits_used f) as [g c] eqn:BU. simpl in W', Hc, E1, E2, E3, E4.
  assert (HH : snd (bits_used g) = c).
  { destruct (bits_used_spec g W') as (_ & HH & _). rewrite HH, E1. auto. }
  pose proof (wb_len g W') as HLn. pose proof (wb_hashes g W') as HHs. pose proof (wb_seed g W') as HSd.
  assert (HLm : (N.of_nat (length (bf_bits g)) mod 2 ^ 32 = N.of_nat (length (bf_bits g)))%N) by (apply N.mod_small; lia).
  assert (Hcl : (c < 2 ^ 40)%N) by (rewrite Hc; apply ones_lt_2_64; rewrite <- E1; auto).
  destruct (N.eqb_spec c 0) as [Hz|Hz]; unfold insert_u8.
  - assert (Lb : length (repeat 0%N 24) = 24) by apply repeat_length. set (b0 := repeat 0%N 24) in *. clearbody b0.
    step_put b1. step_put b2. step_put b3. step_put b4. step_put b5. step_put b6. step_put b7.
    exists b7. eexists. split; [reflexivity|].
    unfold from_slice. destruct (Nat.ltb_spec (length b7) 24); [lia|].
    read_back. cbn [bindo]. rewrite HLm.
    rewrite (N.mod_small (bf_hashes g)), (N.mod_small (bf_seed g)) by (simpl; lia).
    rewrite (N.mod_small (N.of_nat _)) by (simpl; lia).
    change (3 mod 256 ^ N.of_nat 1)%N with 3%N. change (1 mod 256 ^ N.of_nat 1)%N with 1%N.
    change (21 mod 256 ^ N.of_nat 1)%N with 21%N. change (4 mod 256 ^ N.of_nat 1)%N with 4%N.
    cbv zeta. simpl (negb (1 =? 1)%N). simpl (negb (21 =? 21)%N). simpl (negb (N.land 4 4 =? 0)%N).
    cbv iota. simpl (negb (3 =? 3)%N). cbv iota.
    destruct (N.eqb_spec (bf_hashes g) 0); [lia|].
    destruct (Nat.eqb_spec (length b7) 24); [|lia]. split; [reflexivity|]. simpl. rewrite Nat2N.id.
    assert (Hr : repeat 0%N (length (bf_bits g)) = bf_bits f).
    { rewrite E1. symmetry. apply ones_zero_repeat; [apply W|lia]. }
    rewrite Hr, E1. destruct W as [].
    split; [|repeat split; auto; lia].
    constructor; cbn [bf_seed bf_hashes bf_dirty bf_cap bf_nset bf_bits bf_reset]; auto; try lia. intros _. rewrite count_ones. lia.
  - assert (Lb : length (repeat 0%N (32 + length (bf_bits g) * 8)) = 32 + length (bf_bits g) * 8) by apply repeat_length.
    set (b0 := repeat 0%N _) in *. clearbody b0.
    step_put b1. step_put b2. step_put b3. step_put b4. step_put b5. step_put b6. step_put b7. step_put b8.
    destruct (put_words_spec (bf_bits g) 32 b8) as (b9 & EW & LW & GW & OW); [lia|apply W'|].
    rewrite EW. exists b9. eexists. split; [reflexivity|].
    unfold from_slice. destruct (Nat.ltb_spec (length b9) 24); [lia|].
    rewrite !OW by lia.
    read_back. cbn [bindo]. rewrite HLm, HH.
    rewrite (N.mod_small (bf_hashes g)), (N.mod_small (bf_seed g)), (N.mod_small c) by (simpl; lia).
    rewrite (N.mod_small (N.of_nat _)) by (simpl; lia).
    change (4 mod 256 ^ N.of_nat 1)%N with 4%N. change (1 mod 256 ^ N.of_nat 1)%N with 1%N.
    change (21 mod 256 ^ N.of_nat 1)%N with 21%N. change (0 mod 256 ^ N.of_nat 1)%N with 0%N.
    cbv zeta. simpl (negb (1 =? 1)%N). simpl (negb (21 =? 21)%N). simpl (negb (N.land 0 4 =? 0)%N).
    cbv iota. simpl (negb (4 =? 4)%N). cbv iota.
    destruct (N.eqb_spec (bf_hashes g) 0); [lia|]. rewrite Nat2N.id.
    destruct (Nat.eqb_spec (length b9) (32 + length (bf_bits g) * 8)); [|lia]. cbn [negb bindo].
    rewrite GW. cbn [bindo]. split; [reflexivity|]. destruct W'. simpl. 
    split; [|repeat split; auto; lia].
    constructor; cbn [bf_seed bf_hashes bf_dirty bf_cap bf_nset bf_bits bf_reset]; auto; try lia. intros _.
    rewrite count_ones, E1, <- Hc. destruct (c =? _)%N; auto.
Qed.
