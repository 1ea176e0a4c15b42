(** * Murmur3: the property C71.

    The hash functions never read out of range, compute the published MurmurHash3_x64_128 of an explicit byte
    string, and keep keys apart: two keys of one length that differ in one 16-byte block never share all 128
    bits.  The exception is the hash of an int32 slice, which ignores every second element. *)
From Verif Require Import Base Bytes Murmur3Model.
Local Open Scope nat_scope.

(** ** Specification: the published algorithm on byte strings *)

Definition ref_rotl (r x : N) : N := ((x * 2 ^ r) mod 2 ^ 64 + x / 2 ^ (64 - r))%N.
Definition ref_mixk1 (k : N) : N := ((ref_rotl 31 ((k * 0x87c37b91114253d5) mod 2 ^ 64) * 0x4cf5ad432745937f) mod 2 ^ 64)%N.
Definition ref_mixk2 (k : N) : N := ((ref_rotl 33 ((k * 0x4cf5ad432745937f) mod 2 ^ 64) * 0x87c37b91114253d5) mod 2 ^ 64)%N.
Definition ref_xsh (k : N) : N := N.lxor k (k / 2 ^ 33)%N.
Definition ref_fmix (k : N) : N :=
  ref_xsh ((ref_xsh ((ref_xsh k * 0xff51afd7ed558ccd) mod 2 ^ 64) * 0xc4ceb9fe1a85ec53) mod 2 ^ 64)%N.
(** One 16-byte block. *)
Definition ref_block (h : N * N) (k1 k2 : N) : N * N :=
  let h1 := (((ref_rotl 27 (N.lxor (fst h) (ref_mixk1 k1)) + snd h) * 5 + 0x52dce729) mod 2 ^ 64)%N in
  let h2 := (((ref_rotl 31 (N.lxor (snd h) (ref_mixk2 k2)) + h1) * 5 + 0x38495ab5) mod 2 ^ 64)%N in
  (h1, h2).
(** The finalization, given the state and the byte length. *)
Definition ref_final (h : N * N) (len : N) : N * N :=
  let h1 := N.lxor (fst h) len in
  let h2 := N.lxor (snd h) len in
  let h1 := ((h1 + h2) mod 2 ^ 64)%N in
  let h2 := ((h2 + h1) mod 2 ^ 64)%N in
  let h1 := ref_fmix h1 in
  let h2 := ref_fmix h2 in
  let h1 := ((h1 + h2) mod 2 ^ 64)%N in
  let h2 := ((h2 + h1) mod 2 ^ 64)%N in
  (h1, h2).
(** The body consumes [n] blocks and leaves the tail. *)
Fixpoint ref_body (n : nat) (bytes : list N) (h : N * N) : (N * N) * list N :=
  match n with
  | 0 => (h, bytes)
  | S n' => ref_body n' (skipn 16 bytes) (ref_block h (unle (firstn 8 bytes)) (unle (firstn 8 (skipn 8 bytes))))
  end.
(** The tail of at most 15 bytes; a half with no bytes is not mixed. *)
Definition ref_tail (h : N * N) (t : list N) : N * N :=
  let h2 := if 8 <? length t then N.lxor (snd h) (ref_mixk2 (unle (skipn 8 t))) else snd h in
  let h1 := if 0 <? length t then N.lxor (fst h) (ref_mixk1 (unle (firstn 8 t))) else fst h in
  (h1, h2).
Definition murmur3_x64_128 (bytes : list N) (seed : N) : N * N :=
  let (h, t) := ref_body (length bytes / 16) bytes (seed, seed) in
  ref_final (ref_tail h t) (N.of_nat (length bytes) mod 2 ^ 64)%N.

Definition is_bytes (b : list N) : Prop := Forall (fun x => (x < 256)%N) b.
Definition is_int64 (x : Z) : Prop := (- 2 ^ 63 <= x < 2 ^ 63)%Z.
Definition is_int32 (x : Z) : Prop := (- 2 ^ 31 <= x < 2 ^ 31)%Z.

(** The eight bytes of an int64 (two's complement, least significant first). *)
Definition int64_bytes (x : Z) : list N := le 8 (Z.to_N (x mod 2 ^ 64)).
(** A string as the string hash sees it: every group of four bytes followed by as many zeros. *)
Fixpoint spread (s : list N) : list N :=
  match s with
  | a :: b :: c :: d :: r => a :: b :: c :: d :: 0%N :: 0%N :: 0%N :: 0%N :: spread r
  | _ => s ++ repeat 0%N (length s)
  end.

Example murmur3_published_vector : (* "The quick brown fox jumps over the lazy dog", seed 0 *)
  let fox := [84;104;101;32;113;117;105;99;107;32;98;114;111;119;110;32;102;111;120;32;106;117;109;112;115;32;
              111;118;101;114;32;116;104;101;32;108;97;122;121;32;100;111;103]%N in
  murmur3_x64_128 fox 0 = (0xe34bbc7bbc071b6c, 0x7a433ca9c49a9347)%N /\
  hash_byte_arr fox 0 (length fox) 0 = Some (0xe34bbc7bbc071b6c, 0x7a433ca9c49a9347)%N.
Proof. split; vm_compute; reflexivity. Qed.

(** ** The code's operations are the published ones *)

Lemma u64_lt x : (u64 x < 2 ^ 64)%N.
Proof. apply N.mod_lt. discriminate. Qed.
Lemma u64_id x : (x < 2 ^ 64)%N -> u64 x = x.
Proof. apply N.mod_small. Qed.

Lemma lt_log2 a n : (a < 2 ^ n)%N -> a = 0%N \/ (N.log2 a < n)%N.
Proof. intros H. destruct (N.eq_dec a 0) as [->|Ha]; [left; auto|right]. apply N.log2_lt_pow2; lia. Qed.

Lemma testbit_small a n m : (a < 2 ^ n)%N -> (n <= m)%N -> N.testbit a m = false.
Proof.
  intros H L. destruct (lt_log2 a n H) as [->|Hl]; [apply N.bits_0|]. apply N.bits_above_log2. lia.
Qed.

Lemma small_of_bits a n : (forall m, (n <= m)%N -> N.testbit a m = false) -> (a < 2 ^ n)%N.
Proof.
  intros H. destruct (N.eq_dec a 0) as [->|Ha].
  - apply N.neq_0_lt_0. apply N.pow_nonzero. discriminate.
  - apply N.log2_lt_pow2; [lia|]. destruct (N.lt_ge_cases (N.log2 a) n) as [L|G]; auto.
    specialize (H _ G). rewrite N.bit_log2 in H by auto. discriminate.
Qed.

Lemma lxor_lt a b n : (a < 2 ^ n)%N -> (b < 2 ^ n)%N -> (N.lxor a b < 2 ^ n)%N.
Proof.
  intros Ha Hb. apply small_of_bits. intros m Hm. rewrite N.lxor_spec, (testbit_small a n), (testbit_small b n); auto.
Qed.

Lemma lor_lt a b n : (a < 2 ^ n)%N -> (b < 2 ^ n)%N -> (N.lor a b < 2 ^ n)%N.
Proof.
  intros Ha Hb. apply small_of_bits. intros m Hm. rewrite N.lor_spec, (testbit_small a n), (testbit_small b n); auto.
Qed.

Lemma disjoint_land a b n : (a < 2 ^ n)%N -> N.land (b * 2 ^ n) a = 0%N.
Proof.
  intros Ha. apply N.bits_inj. intros m. rewrite N.land_spec, N.bits_0.
  destruct (N.lt_ge_cases m n) as [L|G].
  - rewrite N.mul_pow2_bits_low by auto. reflexivity.
  - rewrite (testbit_small a n m) by auto. apply andb_false_r.
Qed.

Lemma rotl_code r x : (r <= 64)%N -> (x < 2 ^ 64)%N -> N.lor (shl64 x r) (N.shiftr x (64 - r)) = ref_rotl r x.
Proof.
  intros Hr Hx. unfold shl64, u64, ref_rotl. rewrite N.shiftl_mul_pow2, N.shiftr_div_pow2.
  assert (E : (2 ^ 64 = 2 ^ (64 - r) * 2 ^ r)%N) by (rewrite <- N.pow_add_r; f_equal; lia).
  assert (P : (2 ^ r <> 0)%N) by (apply N.pow_nonzero; discriminate).
  assert (Q : (2 ^ (64 - r) <> 0)%N) by (apply N.pow_nonzero; discriminate).
  assert (D : (x / 2 ^ (64 - r) < 2 ^ r)%N).
  { apply N.div_lt_upper_bound; auto. rewrite <- E. auto. }
  rewrite E, N.mul_mod_distr_r by auto.
  rewrite <- N.lxor_lor by (apply disjoint_land; auto).
  rewrite <- N.add_nocarry_lxor by (apply disjoint_land; auto). reflexivity.
Qed.

Lemma mixK1_code k : mixK1 k = ref_mixk1 k.
Proof.
  unfold mixK1, ref_mixk1. rewrite rotl_code; [reflexivity|lia|apply u64_lt].
Qed.
Lemma mixK2_code k : mixK2 k = ref_mixk2 k.
Proof.
  unfold mixK2, ref_mixk2. rewrite rotl_code; [reflexivity|lia|apply u64_lt].
Qed.
Lemma finalMix64_code h : finalMix64 h = ref_fmix h.
Proof. unfold finalMix64, ref_fmix, ref_xsh, mul64, u64. rewrite !N.shiftr_div_pow2. reflexivity. Qed.

Definition ok_state (h : N * N) : Prop := (fst h < 2 ^ 64)%N /\ (snd h < 2 ^ 64)%N.

Lemma ref_mixk1_lt k : (ref_mixk1 k < 2 ^ 64)%N.
Proof. apply N.mod_lt. discriminate. Qed.
Lemma ref_mixk2_lt k : (ref_mixk2 k < 2 ^ 64)%N.
Proof. apply N.mod_lt. discriminate. Qed.

Lemma ref_block_ok h k1 k2 : ok_state (ref_block h k1 k2).
Proof. split; apply N.mod_lt; discriminate. Qed.

Lemma block_code m k1 k2 : ok_state m -> blockMix128 m k1 k2 = ref_block m k1 k2.
Proof.
  destruct m as [h1 h2]. intros [H1 H2]. cbn [fst snd] in H1, H2.
  unfold blockMix128, ref_block. cbn [fst snd]. rewrite mixK1_code, mixK2_code.
  rewrite !rotl_code by (try lia; apply lxor_lt; auto using ref_mixk1_lt, ref_mixk2_lt).
  assert (A : forall x y c, add64 (mul64 (add64 x y) 5) c = (((x + y) * 5 + c) mod 2 ^ 64)%N).
  { intros x y c. unfold add64, mul64, u64. rewrite N.mul_mod_idemp_l by discriminate.
    rewrite N.add_mod_idemp_l by discriminate. reflexivity. }
  rewrite !A. reflexivity.
Qed.

Lemma finalMix_code m k1 k2 len :
  finalMix128 m k1 k2 len = ref_final (N.lxor (fst m) (ref_mixk1 k1), N.lxor (snd m) (ref_mixk2 k2)) len.
Proof.
  destruct m as [h1 h2]. unfold finalMix128, ref_final. cbn [fst snd].
  rewrite mixK1_code, mixK2_code, !finalMix64_code. reflexivity.
Qed.

(** ** Reading words *)

Lemma unle_snoc l x : unle (l ++ [x]) = (unle l + 256 ^ N.of_nat (length l) * x)%N.
Proof.
  induction l as [|y l IH].
  - cbn [app unle length]. change (256 ^ N.of_nat 0)%N with 1%N. lia.
  - cbn [app unle length]. rewrite IH. rewrite Nat2N.inj_succ, N.pow_succ_r'. lia.
Qed.

Lemma unle_zeros l n : unle (l ++ repeat 0%N n) = unle l.
Proof.
  induction l as [|y l IH]; cbn [app unle].
  - induction n as [|n IH]; cbn [repeat unle]; [reflexivity|rewrite IH; lia].
  - rewrite IH. reflexivity.
Qed.

Lemma firstn_S_nth {A} n (l : list A) x : nth_error l n = Some x -> firstn (S n) l = firstn n l ++ [x].
Proof.
  revert l; induction n as [|n IH]; intros [|y l] H; cbn in H; try discriminate.
  - injection H as ->. reflexivity.
  - cbn [firstn app]. f_equal. apply IH. exact H.
Qed.

Lemma is_bytes_firstn n b : is_bytes b -> is_bytes (firstn n b).
Proof. revert b; induction n as [|n IH]; intros [|y b] H; cbn [firstn]; try constructor; inversion H; subst; auto. apply IH; auto. Qed.
Lemma is_bytes_skipn n b : is_bytes b -> is_bytes (skipn n b).
Proof. revert b; induction n as [|n IH]; intros [|y b] H; cbn [skipn]; auto. apply IH. inversion H; auto. Qed.

Lemma pow256 k : (256 ^ k = 2 ^ (8 * k))%N.
Proof. rewrite N.pow_mul_r. reflexivity. Qed.

Lemma unle_small b n : is_bytes b -> length b <= n -> (unle b < 2 ^ (8 * N.of_nat n))%N.
Proof.
  intros Hb Hl. rewrite <- pow256. eapply N.lt_le_trans; [apply unle_lt; exact Hb|].
  apply N.pow_le_mono_r; lia.
Qed.

Lemma get_loop b idx : is_bytes b -> forall rem out, idx + rem <= length b -> rem <= 8 ->
  get_uint64_loop b idx rem out = Some (N.lxor out (unle (firstn rem (skipn idx b)))).
Proof.
  intros Hb. induction rem as [|i IH]; intros out Hl H8.
  - cbn [get_uint64_loop firstn unle]. rewrite N.lxor_0_r. reflexivity.
  - cbn [get_uint64_loop]. destruct (nth_error b (idx + i)) as [x|] eqn:E.
    2:{ apply nth_error_None in E. lia. }
    cbn [bindo]. rewrite IH by lia. f_equal.
    rewrite <- nth_error_skipn' in E. rewrite (firstn_S_nth _ _ _ E), unle_snoc.
    assert (Hx : (x < 256)%N).
    { rewrite nth_error_skipn' in E. apply nth_error_In in E. red in Hb. rewrite Forall_forall in Hb. auto. }
    assert (L : length (firstn i (skipn idx b)) = i) by (rewrite firstn_length, skipn_length; lia).
    rewrite L, pow256.
    assert (Hs : (unle (firstn i (skipn idx b)) < 2 ^ (8 * N.of_nat i))%N).
    { apply unle_small; [auto using is_bytes_firstn, is_bytes_skipn|lia]. }
    assert (E255 : N.land x 255 = x).
    { change 255%N with (N.ones 8). rewrite N.land_ones. apply N.mod_small. exact Hx. }
    rewrite E255. unfold shl64. rewrite N.shiftl_mul_pow2.
    replace (N.of_nat (i * 8)) with (8 * N.of_nat i)%N by lia.
    rewrite u64_id.
    2:{ apply N.lt_le_trans with (256 * 2 ^ (8 * N.of_nat i))%N.
        - apply N.mul_lt_mono_pos_r; auto. apply N.neq_0_lt_0. apply N.pow_nonzero. discriminate.
        - change 256%N with (2 ^ 8)%N. rewrite <- N.pow_add_r. apply N.pow_le_mono_r; lia. }
    rewrite N.lxor_assoc. f_equal.
    rewrite (N.mul_comm (2 ^ _) x), N.add_comm.
    rewrite (N.add_nocarry_lxor (x * 2 ^ (8 * N.of_nat i))) by (apply disjoint_land; auto). reflexivity.
Qed.

Lemma get_word b idx rem : is_bytes b -> idx + rem <= length b -> rem <= 8 ->
  get_uint64 b idx rem = Some (unle (firstn rem (skipn idx b))).
Proof. intros. unfold get_uint64. rewrite get_loop by auto. rewrite N.lxor_0_l. reflexivity. Qed.

(** ** The byte hash is the published hash *)

Lemma skipn_skipn' {A} n m (l : list A) : skipn n (skipn m l) = skipn (m + n) l.
Proof. revert l; induction m as [|m IH]; intros l; cbn [skipn Nat.add]; auto. destruct l; [destruct n; reflexivity|apply IH]. Qed.

Lemma body_ref rd b n : forall i m, ok_state m ->
  (forall j, j < n -> rd (i + j) = Some (unle (firstn 8 (skipn (16 * (i + j)) b)), unle (firstn 8 (skipn (16 * (i + j) + 8) b)))) ->
  body_loop rd n i m = Some (fst (ref_body n (skipn (16 * i) b) m)) /\ ok_state (fst (ref_body n (skipn (16 * i) b) m)) /\
  snd (ref_body n (skipn (16 * i) b) m) = skipn (16 * (i + n)) b.
Proof.
  induction n as [|n IH]; intros i m Hm Hr.
  - cbn [body_loop ref_body fst snd]. repeat split; try apply Hm. f_equal. lia.
  - cbn [body_loop ref_body]. pose proof (Hr 0 ltac:(lia)) as E. rewrite Nat.add_0_r in E. rewrite E. cbn [bindo].
    rewrite block_code by auto. rewrite !skipn_skipn'.
    replace (16 * i + 16) with (16 * S i) by lia.
    destruct (IH (S i) (ref_block m (unle (firstn 8 (skipn (16 * i) b))) (unle (firstn 8 (skipn (16 * i + 8) b)))))
      as (A & B & C).
    + apply ref_block_ok.
    + intros j Hj. specialize (Hr (S j) ltac:(lia)). replace (S i + j) with (i + S j) by lia. exact Hr.
    + rewrite A. repeat split; auto; try apply B. rewrite C. f_equal. lia.
Qed.

Lemma mixk1_0 : ref_mixk1 0 = 0%N.
Proof. vm_compute. reflexivity. Qed.
Lemma mixk2_0 : ref_mixk2 0 = 0%N.
Proof. vm_compute. reflexivity. Qed.

Lemma div_tail n d : d <> 0 -> n - n / d * d = n mod d.
Proof. intros H. pose proof (Nat.div_mod n d H). lia. Qed.

(** HashByteArrMurmur3 over a whole byte slice computes the published hash of these bytes; it never reads out of
    range. *)
Theorem murmur3_bytes_reference b seed : is_bytes b -> (seed < 2 ^ 64)%N ->
  hash_byte_arr b 0 (length b) seed = Some (murmur3_x64_128 b seed).
Proof.
  intros Hb Hs. unfold hash_byte_arr, murmur3_x64_128.
  pose proof (Nat.div_mod (length b) 16 ltac:(discriminate)) as DM.
  pose proof (Nat.mod_upper_bound (length b) 16 ltac:(discriminate)) as MB.
  set (q := length b / 16) in *. set (r := length b mod 16) in *.
  match goal with |- bindo (body_loop ?rd _ _ _) _ = _ => destruct (body_ref rd b q 0 (seed, seed)) as (A & B & C) end.
  - split; auto.
  - intros j Hj. cbn [Nat.add]. rewrite !get_word by (auto; lia). cbn [bindo].
    do 5 f_equal; lia.
  - rewrite A. change (skipn (16 * 0) b) with b in *. cbn [bindo].
    destruct (ref_body q b (seed, seed)) as [h t] eqn:ER. cbn [fst snd] in *.
    replace (length b - q * 16) with r by lia.
    assert (Lt : length t = r) by (rewrite C, skipn_length; lia).
    unfold ref_tail. rewrite Lt.
    assert (Et : skipn (0 + q * 16) b = t) by (rewrite C; f_equal; lia).
    destruct (8 <? r) eqn:E8.
    + apply Nat.ltb_lt in E8. rewrite !get_word by (auto; lia). cbn [bindo].
      rewrite finalMix_code. rewrite Et. rewrite <- skipn_skipn', Et. destruct (0 <? r) eqn:E0; [|apply Nat.ltb_ge in E0; lia].
      rewrite (firstn_all2 (skipn 8 t)) by (rewrite skipn_length; lia). reflexivity.
    + apply Nat.ltb_ge in E8. destruct (r =? 0) eqn:E0; cbn [negb].
      * apply Nat.eqb_eq in E0. destruct (0 <? r) eqn:E1; [apply Nat.ltb_lt in E1; lia|].
        cbn [bindo]. rewrite finalMix_code, mixk1_0, mixk2_0, !N.lxor_0_r. reflexivity.
      * apply Nat.eqb_neq in E0. destruct (0 <? r) eqn:E1; [|apply Nat.ltb_ge in E1; lia].
        rewrite get_word by (auto; lia). cbn [bindo]. rewrite finalMix_code, mixk2_0, N.lxor_0_r. rewrite Et.
        rewrite !firstn_all2 by lia. reflexivity.
Qed.

(** ** The other hashes are the published hash of an explicit byte string *)

Lemma body_ext rd rd' n : forall i m, (forall j, i <= j < i + n -> rd j = rd' j) -> body_loop rd n i m = body_loop rd' n i m.
Proof.
  induction n as [|n IH]; intros i m H; cbn [body_loop]; auto.
  rewrite (H i) by lia. destruct (rd' i) as [[k1 k2]|]; cbn [bindo]; auto. apply IH. intros; apply H; lia.
Qed.

Lemma to_u64_lt x : (to_u64 x < 2 ^ 64)%N.
Proof.
  unfold to_u64. pose proof (Z.mod_pos_bound x (2 ^ 64) ltac:(lia)) as B.
  apply N2Z.inj_lt. rewrite Z2N.id by lia. exact (proj2 B).
Qed.

Lemma int64_flat_skip key j : skipn (8 * j) (flat_map int64_bytes key) = flat_map int64_bytes (skipn j key).
Proof.
  revert key; induction j as [|j IH]; intros key; [reflexivity|].
  destruct key as [|x key]; [reflexivity|].
  replace (8 * S j) with (8 + 8 * j) by lia. rewrite <- skipn_skipn'.
  cbn [flat_map]. rewrite skipn_app.
  assert (L : length (int64_bytes x) = 8) by apply le_length.
  rewrite L. replace (8 - 8) with 0 by lia. rewrite (skipn_all2 (int64_bytes x)) by lia. cbn [app skipn]. apply IH.
Qed.

Lemma int64_flat_length key : length (flat_map int64_bytes key) = 8 * length key.
Proof.
  induction key as [|x key IH]; [reflexivity|]. cbn [flat_map length]. rewrite app_length, IH.
  unfold int64_bytes. rewrite le_length. lia.
Qed.

Lemma int64_flat_bytes key : is_bytes (flat_map int64_bytes key).
Proof. induction key as [|x key IH]; [constructor|]. cbn [flat_map]. apply Forall_app. split; [apply le_bytes|exact IH]. Qed.

Lemma int64_word key j : j < length key ->
  word_at key j = Some (unle (firstn 8 (skipn (8 * j) (flat_map int64_bytes key)))).
Proof.
  intros Hj. unfold word_at. destruct (nth_error key j) as [x|] eqn:E; [|apply nth_error_None in E; lia].
  cbn [bindo]. f_equal. rewrite int64_flat_skip.
  rewrite <- (Nat.add_0_r j), <- nth_error_skipn' in E. destruct (skipn j key) as [|y r]; [discriminate|].
  injection E as ->. cbn [flat_map]. assert (L : length (int64_bytes x) = 8) by apply le_length.
  rewrite firstn_app, L. replace (8 - 8) with 0 by lia. rewrite firstn_O, app_nil_r, firstn_all2 by lia.
  unfold int64_bytes. rewrite unle_le. symmetry. apply N.mod_small. apply to_u64_lt.
Qed.

(** HashInt64SliceMurmur3 of a slice is the byte hash of the elements' bytes. *)
Lemma int64_slice_as_bytes key seed :
  hash_int64_slice key 0 (length key) seed =
  hash_byte_arr (flat_map int64_bytes key) 0 (length (flat_map int64_bytes key)) seed.
Proof.
  unfold hash_int64_slice, hash_byte_arr.
  rewrite int64_flat_length. set (n := length key).
  assert (Q : 8 * n / 16 = n / 2).
  { replace 16 with (8 * 2) by lia. rewrite Nat.div_mul_cancel_l by discriminate. reflexivity. }
  rewrite Q. pose proof (Nat.div_mod n 2 ltac:(discriminate)) as DM.
  pose proof (Nat.mod_upper_bound n 2 ltac:(discriminate)) as MB. set (q := n / 2) in *.
  pose proof (int64_flat_bytes key) as HB. pose proof (int64_flat_length key) as HL. fold n in HL.
  rewrite (body_ext _ (fun i => do k1 <- get_uint64 (flat_map int64_bytes key) (0 + i * 16) 8;
     do k2 <- get_uint64 (flat_map int64_bytes key) (0 + i * 16 + 8) 8; Some (k1, k2))).
  2:{ intros j Hj. rewrite !get_word by (auto; lia). rewrite !int64_word by (fold n; lia). cbn [bindo]. do 5 f_equal; lia. }
  destruct (body_loop _ q 0 (seed, seed)) as [m|]; [|reflexivity]. cbn [bindo].
  assert (EL : shl64 (u64 (N.of_nat n)) 3 = u64 (N.of_nat (8 * n))).
  { unfold shl64, u64. rewrite N.shiftl_mul_pow2, N.mul_mod_idemp_l by discriminate. f_equal. lia. }
  rewrite EL.
  replace (8 * n - q * 16) with (8 * (n - q * 2)) by lia.
  assert (C : n - q * 2 = 0 \/ n - q * 2 = 1) by lia. destruct C as [C|C]; rewrite C.
  - reflexivity.
  - cbn [Nat.mul Nat.add negb Nat.eqb]. change (8 <? 8) with false. cbv iota.
    rewrite get_word by (auto; lia). rewrite int64_word by (fold n; lia). cbn [bindo]. do 5 f_equal. lia.
Qed.

Theorem murmur3_int64_reference key seed : (seed < 2 ^ 64)%N ->
  hash_int64_slice key 0 (length key) seed = Some (murmur3_x64_128 (flat_map int64_bytes key) seed).
Proof.
  intros Hs. rewrite int64_slice_as_bytes. apply murmur3_bytes_reference; auto. apply int64_flat_bytes.
Qed.

(** Strings. *)
Lemma spread_length : forall n s, length s <= n -> length (spread s) = 2 * length s.
Proof.
  induction n as [|n IH]; intros s H.
  - destruct s; [reflexivity|cbn in H; lia].
  - destruct s as [|a [|b [|c [|d r]]]]; try reflexivity.
    cbn [spread length] in *. rewrite IH by lia. lia.
Qed.
Lemma spread_bytes : forall n s, length s <= n -> is_bytes s -> is_bytes (spread s).
Proof.
  assert (Z0 : (0 < 256)%N) by lia.
  induction n as [|n IH]; intros s H HB.
  - destruct s; [constructor|cbn in H; lia].
  - destruct s as [|a [|b [|c [|d r]]]].
    1-4: cbn [spread]; apply Forall_app; split; auto; cbn [length repeat]; auto 10.
    unfold is_bytes in *. cbn [spread length] in *.
    repeat match goal with H : Forall _ (_ :: _) |- _ => apply Forall_cons_iff in H; destruct H end.
    repeat constructor; auto. apply IH; auto. lia.
Qed.
Lemma spread_skip j : forall s, 4 * j <= length s -> skipn (8 * j) (spread s) = spread (skipn (4 * j) s).
Proof.
  induction j as [|j IH]; intros s H; [reflexivity|].
  destruct s as [|a [|b [|c [|d r]]]]; cbn [length] in H; try lia.
  replace (8 * S j) with (8 + 8 * j) by lia. replace (4 * S j) with (4 + 4 * j) by lia.
  rewrite <- !skipn_skipn'. cbn [spread skipn]. apply IH. lia.
Qed.
Lemma spread_word j s : 4 * j + 4 <= length s ->
  unle (firstn 8 (skipn (8 * j) (spread s))) = unle (firstn 4 (skipn (4 * j) s)).
Proof.
  intros H. rewrite spread_skip by lia.
  assert (L : 4 <= length (skipn (4 * j) s)) by (rewrite skipn_length; lia).
  destruct (skipn (4 * j) s) as [|a [|b [|c [|d r]]]]; cbn [length] in L; try lia.
  cbn [spread firstn]. apply (unle_zeros [a; b; c; d] 4).
Qed.
Lemma spread_small s : length s <= 4 -> spread s = s ++ repeat 0%N (length s).
Proof.
  intros L. destruct s as [|a [|b [|c [|d [|e r]]]]]; try reflexivity. cbn [length] in L. lia.
Qed.
Lemma spread_cut s : 4 <= length s -> spread s = firstn 4 s ++ repeat 0%N 4 ++ spread (skipn 4 s).
Proof. intros L. destruct s as [|a [|b [|c [|d r]]]]; cbn [length] in L; try lia. reflexivity. Qed.

Lemma char_slice_as_bytes s seed : is_bytes s ->
  hash_char_slice s 0 (length s) seed = hash_byte_arr (spread s) 0 (length (spread s)) seed.
Proof.
  intros HB. unfold hash_char_slice, hash_byte_arr.
  pose proof (spread_length _ s (Nat.le_refl _)) as HL. pose proof (spread_bytes _ s (Nat.le_refl _) HB) as HB2.
  rewrite HL. set (n := length s) in *.
  assert (Q : 2 * n / 16 = n / 8).
  { replace 16 with (2 * 8) by lia. rewrite Nat.div_mul_cancel_l by discriminate. reflexivity. }
  rewrite Q. pose proof (Nat.div_mod n 8 ltac:(discriminate)) as DM.
  pose proof (Nat.mod_upper_bound n 8 ltac:(discriminate)) as MB. set (q := n / 8) in *.
  rewrite (body_ext _ (fun i => do k1 <- get_uint64 (spread s) (0 + i * 16) 8;
     do k2 <- get_uint64 (spread s) (0 + i * 16 + 8) 8; Some (k1, k2))).
  2:{ intros j Hj. rewrite !get_word by (auto; fold n; lia). cbn [bindo].
      replace (0 + j * 16) with (8 * (2 * j)) by lia. replace (8 * (2 * j) + 8) with (8 * (2 * j + 1)) by lia.
      rewrite !spread_word by (fold n; lia). do 5 f_equal; lia. }
  destruct (body_loop _ q 0 (seed, seed)) as [m|]; [|reflexivity]. cbn [bindo].
  assert (EL : shl64 (u64 (N.of_nat n)) 1 = u64 (N.of_nat (2 * n))).
  { unfold shl64, u64. rewrite N.shiftl_mul_pow2, N.mul_mod_idemp_l by discriminate. f_equal. lia. }
  rewrite EL. set (r := n - q * 8). replace (2 * n - q * 16) with (2 * r) by lia.
  assert (ES : skipn (0 + q * 16) (spread s) = spread (skipn (q * 8) s)).
  { replace (0 + q * 16) with (8 * (2 * q)) by lia. rewrite spread_skip by (fold n; lia). do 2 f_equal. lia. }
  assert (LT : length (skipn (q * 8) s) = r) by (rewrite skipn_length; fold n; lia).
  set (t := skipn (q * 8) s) in *.
  destruct (4 <? r) eqn:E4.
  - apply Nat.ltb_lt in E4. assert (E8 : (8 <? 2 * r) = true) by (apply Nat.ltb_lt; lia). rewrite E8.
    rewrite !get_word by (auto; fold n; lia). cbn [bindo]. rewrite <- (skipn_skipn' 8 (0 + q * 16)), <- (skipn_skipn' 4 (0 + q * 8)), ES.
    change (skipn (0 + q * 8) s) with t.
    rewrite (spread_cut t) by lia. 
    assert (L4 : length (firstn 4 t) = 4) by (rewrite firstn_length; lia).
    assert (L4' : length (skipn 4 t) = r - 4) by (rewrite skipn_length; lia).
    assert (LS : length (spread (skipn 4 t)) = 2 * (r - 4)) by (rewrite (spread_length _ _ (Nat.le_refl _)); lia).
    do 2 f_equal.
    + rewrite app_assoc, firstn_app, app_length, repeat_length, L4. replace (8 - (4 + 4)) with 0 by lia.
      rewrite firstn_O, app_nil_r, (firstn_all2 (firstn 4 t ++ _)) by (rewrite app_length, repeat_length; lia).
      symmetry. apply unle_zeros.
    + rewrite app_assoc, skipn_app, app_length, repeat_length, L4. replace (8 - (4 + 4)) with 0 by lia.
      rewrite skipn_O, (skipn_all2 (firstn 4 t ++ _)) by (rewrite app_length, repeat_length; lia). cbn [app].
      rewrite !firstn_all2 by lia. rewrite spread_small by lia. symmetry. apply unle_zeros.
  - apply Nat.ltb_ge in E4. assert (E8 : (8 <? 2 * r) = false) by (apply Nat.ltb_ge; lia). rewrite E8.
    destruct (r =? 0) eqn:E0.
    + apply Nat.eqb_eq in E0. rewrite E0. reflexivity.
    + apply Nat.eqb_neq in E0. assert (E1 : (2 * r =? 0) = false) by (apply Nat.eqb_neq; lia). rewrite E1. cbn [negb].
      rewrite !get_word by (auto; fold n; lia). cbn [bindo]. rewrite ES. change (skipn (0 + q * 8) s) with t.
      do 2 f_equal. rewrite spread_small by lia. rewrite !firstn_all2 by (rewrite ?app_length, ?repeat_length; lia).
      symmetry. apply unle_zeros.
Qed.

(** HashCharSliceMurmur3 of a string is the published hash of the string spread out with zeros. *)
Theorem murmur3_string_reference s seed : is_bytes s -> (seed < 2 ^ 64)%N ->
  hash_char_slice s 0 (length s) seed = Some (murmur3_x64_128 (spread s) seed).
Proof.
  intros Hb Hs. rewrite char_slice_as_bytes by auto. apply murmur3_bytes_reference; auto.
  apply (spread_bytes _ s (Nat.le_refl _)); auto.
Qed.

(** ** int32 slices *)

(** Only the elements at even positions and the length enter the hash. *)
Theorem murmur3_int32_even_positions a b seed : length a = length b ->
  (forall i, nth_error a (2 * i) = nth_error b (2 * i)) ->
  hash_int32_slice a 0 (length a) seed = hash_int32_slice b 0 (length b) seed.
Proof.
  intros L H. unfold hash_int32_slice. rewrite <- L.
  assert (W : forall i, word_at a (2 * i) = word_at b (2 * i)) by (intros i; unfold word_at; rewrite H; reflexivity).
  set (q := length a / 4). 
  rewrite (body_ext _ (fun i => do k1 <- word_at b (0 + i * 4); do k2 <- word_at b (0 + i * 4 + 2); Some (k1, k2))).
  2:{ intros j _. replace (0 + j * 4) with (2 * (2 * j)) by lia. replace (2 * (2 * j) + 2) with (2 * (2 * j + 1)) by lia.
      rewrite !W. reflexivity. }
  replace (0 + q * 4 + 2) with (2 * (2 * q + 1)) by lia. replace (0 + q * 4) with (2 * (2 * q)) by lia.
  rewrite !W. reflexivity.
Qed.

(** A slice of int32 never makes the hash fail, and a single int32 that is not negative hashes as its four
    bytes. *)
Theorem murmur3_int32_total key seed : exists h, hash_int32_slice key 0 (length key) seed = Some h.
Proof.
  unfold hash_int32_slice. set (n := length key).
  pose proof (Nat.div_mod n 4 ltac:(discriminate)) as DM.
  pose proof (Nat.mod_upper_bound n 4 ltac:(discriminate)) as MB. set (q := n / 4) in *.
  assert (W : forall j, j < n -> exists w, word_at key j = Some w).
  { intros j Hj. unfold word_at. destruct (nth_error key j) as [x|] eqn:E; [eexists; reflexivity|].
    apply nth_error_None in E. fold n in E. lia. }
  assert (B : forall k i m, 4 * (i + k) <= n -> exists m', body_loop (fun i => do k1 <- word_at key (0 + i * 4);
     do k2 <- word_at key (0 + i * 4 + 2); Some (k1, k2)) k i m = Some m').
  { induction k as [|k IH]; intros i m H; cbn [body_loop]; [eexists; reflexivity|].
    destruct (W (0 + i * 4) ltac:(lia)) as [w1 E1]. destruct (W (0 + i * 4 + 2) ltac:(lia)) as [w2 E2].
    rewrite E1. cbn [bindo]. rewrite E2. cbn [bindo]. apply IH. lia. }
  destruct (B q 0 (seed, seed) ltac:(lia)) as [m E]. rewrite E. cbn [bindo].
  destruct (2 <? n - q * 4) eqn:E2.
  - apply Nat.ltb_lt in E2. destruct (W (0 + q * 4) ltac:(lia)) as [w1 F1].
    destruct (W (0 + q * 4 + 2) ltac:(lia)) as [w2 F2]. rewrite F1. cbn [bindo]. rewrite F2. cbn [bindo].
    eexists; reflexivity.
  - destruct (n - q * 4 =? 0) eqn:E0; cbn [negb bindo].
    + eexists; reflexivity.
    + apply Nat.eqb_neq in E0. destruct (W (0 + q * 4) ltac:(lia)) as [w1 F1]. rewrite F1. cbn [bindo].
      eexists; reflexivity.
Qed.

Theorem murmur3_int32_reference x seed : (0 <= x < 2 ^ 31)%Z -> (seed < 2 ^ 64)%N ->
  hash_int32_slice [x] 0 1 seed = Some (murmur3_x64_128 (le 4 (Z.to_N x)) seed).
Proof.
  intros Hx Hs. rewrite <- murmur3_bytes_reference by (auto; apply le_bytes).
  unfold hash_byte_arr. rewrite le_length.
  change (hash_int32_slice [x] 0 1 seed) with (Some (finalMix128 (seed, seed) (to_u64 x) 0 4)).
  change (4 / 16) with 0. cbn [body_loop bindo Nat.mul Nat.sub Nat.add negb Nat.eqb]. change (8 <? 4) with false. cbv iota.
  rewrite get_word by (rewrite ?le_length; try apply le_bytes; lia). cbn [bindo skipn]. f_equal. f_equal.
  rewrite firstn_all2 by (rewrite le_length; lia).
  rewrite unle_le_small. 2:{ change (256 ^ N.of_nat 4)%N with (2 ^ 32)%N. apply N2Z.inj_lt. rewrite Z2N.id by lia. change (Z.of_N (2 ^ 32)) with (2 ^ 32)%Z. lia. }
  unfold to_u64. rewrite Z.mod_small by lia. reflexivity.
Qed.

(** ** Keys are kept apart *)

Lemma mul_inj c c' x y : ((c * c') mod 2 ^ 64 = 1)%N -> (x < 2 ^ 64)%N -> (y < 2 ^ 64)%N ->
  ((x * c) mod 2 ^ 64 = (y * c) mod 2 ^ 64)%N -> x = y.
Proof.
  intros Hc Hx Hy H.
  assert (G : forall z, (z < 2 ^ 64)%N -> (((z * c) mod 2 ^ 64 * c') mod 2 ^ 64 = z)%N).
  { intros z Hz. rewrite N.mul_mod_idemp_l by discriminate. rewrite <- N.mul_assoc.
    rewrite <- N.mul_mod_idemp_r by discriminate. rewrite Hc, N.mul_1_r. apply N.mod_small; auto. }
  rewrite <- (G x Hx), <- (G y Hy), H. reflexivity.
Qed.

Lemma mixc1_inj x y : (x < 2 ^ 64)%N -> (y < 2 ^ 64)%N ->
  ((x * 0x87c37b91114253d5) mod 2 ^ 64 = (y * 0x87c37b91114253d5) mod 2 ^ 64)%N -> x = y.
Proof. apply (mul_inj _ 0xa98409e882ce4d7d). vm_compute. reflexivity. Qed.
Lemma mixc2_inj x y : (x < 2 ^ 64)%N -> (y < 2 ^ 64)%N ->
  ((x * 0x4cf5ad432745937f) mod 2 ^ 64 = (y * 0x4cf5ad432745937f) mod 2 ^ 64)%N -> x = y.
Proof. apply (mul_inj _ 0xa81e14edd9de2c7f). vm_compute. reflexivity. Qed.
Lemma fmix1_inj x y : (x < 2 ^ 64)%N -> (y < 2 ^ 64)%N ->
  ((x * 0xff51afd7ed558ccd) mod 2 ^ 64 = (y * 0xff51afd7ed558ccd) mod 2 ^ 64)%N -> x = y.
Proof. apply (mul_inj _ 0x4f74430c22a54005). vm_compute. reflexivity. Qed.
Lemma fmix2_inj x y : (x < 2 ^ 64)%N -> (y < 2 ^ 64)%N ->
  ((x * 0xc4ceb9fe1a85ec53) mod 2 ^ 64 = (y * 0xc4ceb9fe1a85ec53) mod 2 ^ 64)%N -> x = y.
Proof. apply (mul_inj _ 0x9cb4b2f8129337db). vm_compute. reflexivity. Qed.

Lemma rotl_form r x : (r <= 64)%N -> (x < 2 ^ 64)%N ->
  ref_rotl r x = ((x mod 2 ^ (64 - r)) * 2 ^ r + x / 2 ^ (64 - r))%N /\ (x / 2 ^ (64 - r) < 2 ^ r)%N.
Proof.
  intros Hr Hx. unfold ref_rotl.
  assert (E : (2 ^ 64 = 2 ^ (64 - r) * 2 ^ r)%N) by (rewrite <- N.pow_add_r; f_equal; lia).
  assert (P : (2 ^ r <> 0)%N) by (apply N.pow_nonzero; discriminate).
  assert (Q : (2 ^ (64 - r) <> 0)%N) by (apply N.pow_nonzero; discriminate).
  split.
  - rewrite E at 1. rewrite N.mul_mod_distr_r by auto. reflexivity.
  - apply N.div_lt_upper_bound; auto. rewrite <- E. auto.
Qed.

Lemma rotl_lt r x : (r <= 64)%N -> (x < 2 ^ 64)%N -> (ref_rotl r x < 2 ^ 64)%N.
Proof.
  intros Hr Hx. destruct (rotl_form r x Hr Hx) as [-> D].
  assert (E : (2 ^ 64 = 2 ^ (64 - r) * 2 ^ r)%N) by (rewrite <- N.pow_add_r; f_equal; lia).
  assert (Q : (2 ^ (64 - r) <> 0)%N) by (apply N.pow_nonzero; discriminate).
  pose proof (N.mod_lt x _ Q) as M. rewrite E.
  assert ((x mod 2 ^ (64 - r) + 1) * 2 ^ r <= 2 ^ (64 - r) * 2 ^ r)%N by (apply N.mul_le_mono_r; lia). lia.
Qed.

Lemma rotl_inj r x y : (r <= 64)%N -> (x < 2 ^ 64)%N -> (y < 2 ^ 64)%N -> ref_rotl r x = ref_rotl r y -> x = y.
Proof.
  intros Hr Hx Hy H. destruct (rotl_form r x Hr Hx) as [Ex Dx]. destruct (rotl_form r y Hr Hy) as [Ey Dy].
  rewrite Ex, Ey in H.
  assert (P : (2 ^ r <> 0)%N) by (apply N.pow_nonzero; discriminate).
  assert (Q : (2 ^ (64 - r) <> 0)%N) by (apply N.pow_nonzero; discriminate).
  assert (G : (x mod 2 ^ (64 - r) = y mod 2 ^ (64 - r))%N /\ (x / 2 ^ (64 - r) = y / 2 ^ (64 - r))%N).
  { rewrite !(N.mul_comm _ (2 ^ r)) in H. exact (N.div_mod_unique (2 ^ r) _ _ _ _ Dx Dy H). }
  destruct G as [G1 G2]. rewrite (N.div_mod x _ Q), (N.div_mod y _ Q), G1, G2. reflexivity.
Qed.

Lemma lxor_cancel_l a b c : N.lxor a b = N.lxor a c -> b = c.
Proof.
  intros H. apply (f_equal (N.lxor a)) in H. rewrite <- !N.lxor_assoc, N.lxor_nilpotent, !N.lxor_0_l in H. exact H.
Qed.
Lemma lxor_cancel_r a b c : N.lxor b a = N.lxor c a -> b = c.
Proof. rewrite !(N.lxor_comm _ a). apply lxor_cancel_l. Qed.

Lemma add_inj_r x y c : (x < 2 ^ 64)%N -> (y < 2 ^ 64)%N -> ((x + c) mod 2 ^ 64 = (y + c) mod 2 ^ 64)%N -> x = y.
Proof.
  intros Hx Hy H.
  assert (G : forall z, (z < 2 ^ 64)%N -> (((z + c) mod 2 ^ 64 + (2 ^ 64 - c mod 2 ^ 64)) mod 2 ^ 64 = z)%N).
  { intros z Hz. rewrite N.add_mod_idemp_l by discriminate.
    pose proof (N.mod_lt c (2 ^ 64) ltac:(discriminate)) as M.
    rewrite (N.div_mod c (2 ^ 64)) at 1 by discriminate. set (m := (c mod 2 ^ 64)%N) in *. set (q := (c / 2 ^ 64)%N).
    replace (z + (2 ^ 64 * q + m) + (2 ^ 64 - m))%N with (z + (q + 1) * 2 ^ 64)%N by lia.
    rewrite N.mod_add by discriminate. apply N.mod_small; auto. }
  rewrite <- (G x Hx), <- (G y Hy), H. reflexivity.
Qed.

Lemma xsh_lt x : (x < 2 ^ 64)%N -> (ref_xsh x < 2 ^ 64)%N.
Proof.
  intros H. unfold ref_xsh. apply lxor_lt; auto. eapply N.le_lt_trans; [|exact H]. apply N.div_le_upper_bound; [discriminate|]. lia.
Qed.

Lemma xsh_inv x : (x < 2 ^ 64)%N -> ref_xsh (ref_xsh x) = x.
Proof.
  intros H. unfold ref_xsh. rewrite <- !N.shiftr_div_pow2, N.shiftr_lxor, N.shiftr_shiftr.
  rewrite (N.shiftr_div_pow2 x (33 + 33)), (N.div_small x).
  - rewrite N.lxor_0_r, N.lxor_assoc, N.lxor_nilpotent, N.lxor_0_r. reflexivity.
  - eapply N.lt_le_trans; [exact H|]. apply N.pow_le_mono_r; lia.
Qed.

Lemma fmix_lt x : (x < 2 ^ 64)%N -> (ref_fmix x < 2 ^ 64)%N.
Proof. intros _. apply xsh_lt. apply N.mod_lt. discriminate. Qed.

Lemma fmix_inj x y : (x < 2 ^ 64)%N -> (y < 2 ^ 64)%N -> ref_fmix x = ref_fmix y -> x = y.
Proof.
  intros Hx Hy H. unfold ref_fmix in H.
  assert (M : forall z, (z mod 2 ^ 64 < 2 ^ 64)%N) by (intros; apply N.mod_lt; discriminate).
  assert (I : forall a b, (a < 2 ^ 64)%N -> (b < 2 ^ 64)%N -> ref_xsh a = ref_xsh b -> a = b).
  { intros a b Ha Hb E. rewrite <- (xsh_inv a Ha), <- (xsh_inv b Hb), E. reflexivity. }
  apply I in H; auto. apply fmix2_inj in H; auto using xsh_lt. apply I in H; auto.
  apply fmix1_inj in H; auto using xsh_lt.
Qed.

Lemma mixk1_inj x y : (x < 2 ^ 64)%N -> (y < 2 ^ 64)%N -> ref_mixk1 x = ref_mixk1 y -> x = y.
Proof.
  intros Hx Hy H. assert (M : forall z, (z mod 2 ^ 64 < 2 ^ 64)%N) by (intros; apply N.mod_lt; discriminate).
  unfold ref_mixk1 in H. apply mixc2_inj in H; try (apply rotl_lt; auto; lia).
  apply rotl_inj in H; [|discriminate|auto|auto]. apply mixc1_inj in H; auto.
Qed.
Lemma mixk2_inj x y : (x < 2 ^ 64)%N -> (y < 2 ^ 64)%N -> ref_mixk2 x = ref_mixk2 y -> x = y.
Proof.
  intros Hx Hy H. assert (M : forall z, (z mod 2 ^ 64 < 2 ^ 64)%N) by (intros; apply N.mod_lt; discriminate).
  unfold ref_mixk2 in H. apply mixc1_inj in H; try (apply rotl_lt; auto; lia).
  apply rotl_inj in H; [|discriminate|auto|auto]. apply mixc2_inj in H; auto.
Qed.

(** Half a block step: (rotl r (h xor m) + g) * 5 + c is injective in h xor m. *)
Lemma half_inj r c g x y : (r <= 64)%N -> (x < 2 ^ 64)%N -> (y < 2 ^ 64)%N ->
  (((ref_rotl r x + g) * 5 + c) mod 2 ^ 64 = ((ref_rotl r y + g) * 5 + c) mod 2 ^ 64)%N -> x = y.
Proof.
  intros Hr Hx Hy H. apply (rotl_inj r); auto.
  apply (add_inj_r _ _ g); try (apply rotl_lt; auto).
  apply (mul_inj 5 0xcccccccccccccccd); [vm_compute; reflexivity|apply N.mod_lt; discriminate|apply N.mod_lt; discriminate|].
  apply (add_inj_r _ _ c); try (apply N.mod_lt; discriminate).
  rewrite !N.mul_mod_idemp_l, !N.add_mod_idemp_l by discriminate. exact H.
Qed.

Lemma block_inj h h' k1 k2 k1' k2' : ok_state h -> ok_state h' ->
  (h = h' \/ (k1 = k1' /\ k2 = k2')) ->
  (k1 < 2 ^ 64)%N -> (k2 < 2 ^ 64)%N -> (k1' < 2 ^ 64)%N -> (k2' < 2 ^ 64)%N ->
  ref_block h k1 k2 = ref_block h' k1' k2' -> h = h' /\ k1 = k1' /\ k2 = k2'.
Proof.
  destruct h as [a b], h' as [a' b']. intros [A B] [A' B'] C K1 K2 K1' K2' H. cbn [fst snd] in *.
  unfold ref_block in H. cbn [fst snd] in H. injection H as H1 H2. rewrite <- H1 in H2.
  apply half_inj in H2; try lia; try (apply lxor_lt; auto using ref_mixk2_lt).
  destruct C as [C|[-> ->]].
  - injection C as <- <-.
    apply half_inj in H1; try lia; try (apply lxor_lt; auto using ref_mixk1_lt).
    apply lxor_cancel_l in H1, H2. apply mixk1_inj in H1; auto. apply mixk2_inj in H2; auto.
  - apply lxor_cancel_r in H2. subst b'.
    apply half_inj in H1; try lia; try (apply lxor_lt; auto using ref_mixk1_lt).
    apply lxor_cancel_r in H1. subst a'. auto.
Qed.

Lemma final_inj h h' len len' : ok_state h -> ok_state h' -> (len < 2 ^ 64)%N -> (len' < 2 ^ 64)%N ->
  ref_final h len = ref_final h' len' -> N.lxor (fst h) len = N.lxor (fst h') len' /\ N.lxor (snd h) len = N.lxor (snd h') len'.
Proof.
  destruct h as [a b], h' as [a' b']. intros [A B] [A' B'] L L' H. cbn [fst snd] in *.
  unfold ref_final in H. cbn [fst snd] in H.
  assert (M : forall z, (z mod 2 ^ 64 < 2 ^ 64)%N) by (intros; apply N.mod_lt; discriminate).
  assert (XA : (N.lxor a len < 2 ^ 64)%N) by (apply lxor_lt; auto).
  assert (XB : (N.lxor b len < 2 ^ 64)%N) by (apply lxor_lt; auto).
  assert (XA' : (N.lxor a' len' < 2 ^ 64)%N) by (apply lxor_lt; auto).
  assert (XB' : (N.lxor b' len' < 2 ^ 64)%N) by (apply lxor_lt; auto).
  set (xa := N.lxor a len) in *. set (xb := N.lxor b len) in *. set (xa' := N.lxor a' len') in *. set (xb' := N.lxor b' len') in *.
  injection H as H1 H2. rewrite <- H1 in H2. apply add_inj_r in H2; auto using fmix_lt.
  rewrite <- H2 in H1. apply add_inj_r in H1; auto using fmix_lt.
  apply fmix_inj in H1; auto. apply fmix_inj in H2; auto. rewrite <- H1 in H2.
  apply add_inj_r in H2; auto. rewrite <- H2 in H1. apply add_inj_r in H1; auto.
Qed.

Lemma unle_inj a b : is_bytes a -> is_bytes b -> length a = length b -> unle a = unle b -> a = b.
Proof. intros Ha Hb L H. rewrite <- (le_unle a Ha), <- (le_unle b Hb), L, H. reflexivity. Qed.

Lemma first8_lt b : is_bytes b -> (unle (firstn 8 b) < 2 ^ 64)%N.
Proof. intros Hb. apply (unle_small (firstn 8 b) 8); [apply is_bytes_firstn; auto|rewrite firstn_length; lia]. Qed.
Lemma skip8_lt b : is_bytes b -> length b <= 16 -> (unle (skipn 8 b) < 2 ^ 64)%N.
Proof. intros Hb L. apply (unle_small (skipn 8 b) 8); [apply is_bytes_skipn; auto|rewrite skipn_length; lia]. Qed.

Lemma tail_ok h t : ok_state h -> ok_state (ref_tail h t).
Proof.
  intros [A B]. unfold ref_tail. split; cbn [fst snd].
  - destruct (0 <? length t); auto. apply lxor_lt; auto using ref_mixk1_lt.
  - destruct (8 <? length t); auto. apply lxor_lt; auto using ref_mixk2_lt.
Qed.

(** The tail step is injective in the state, and in the bytes of a tail of given length. *)
Lemma tail_inj h h' t t' : ok_state h -> ok_state h' -> is_bytes t -> is_bytes t' -> length t = length t' ->
  length t < 16 -> (h = h' \/ t = t') -> ref_tail h t = ref_tail h' t' -> h = h' /\ t = t'.
Proof.
  destruct h as [a b], h' as [a' b']. intros [A B] [A' B'] T T' L L16 C H. cbn [fst snd] in *.
  unfold ref_tail in H. rewrite <- L in H. cbn [fst snd] in H. injection H as H1 H2.
  destruct C as [C| <-].
  - injection C as <- <-. split; auto.
    assert (F : firstn 8 t = firstn 8 t').
    { destruct (0 <? length t) eqn:E.
      - apply lxor_cancel_l in H1. apply mixk1_inj in H1; [|apply first8_lt; auto|apply first8_lt; auto].
        apply unle_inj; auto using is_bytes_firstn. rewrite !firstn_length. lia.
      - apply Nat.ltb_ge in E. destruct t; [|cbn in E; lia]. destruct t'; [reflexivity|discriminate]. }
    assert (G : skipn 8 t = skipn 8 t').
    { destruct (8 <? length t) eqn:E.
      - apply lxor_cancel_l in H2. apply mixk2_inj in H2; [|apply skip8_lt; auto; lia|apply skip8_lt; auto; lia].
        apply unle_inj; auto using is_bytes_skipn. rewrite !skipn_length. lia.
      - apply Nat.ltb_ge in E. rewrite !skipn_all2 by lia. reflexivity. }
    rewrite <- (firstn_skipn 8 t), F, G. apply firstn_skipn.
  - split; auto. f_equal.
    + destruct (0 <? length t); [apply lxor_cancel_r in H1|]; auto.
    + destruct (8 <? length t); [apply lxor_cancel_r in H2|]; auto.
Qed.

Lemma body_app n m b h : ref_body (n + m) b h = ref_body m (skipn (16 * n) b) (fst (ref_body n b h)).
Proof.
  revert b h; induction n as [|n IH]; intros b h; [reflexivity|].
  cbn [Nat.add ref_body]. rewrite IH. rewrite skipn_skipn'. f_equal; try reflexivity. f_equal. lia.
Qed.

Lemma body_ok n : forall b h, ok_state h -> ok_state (fst (ref_body n b h)).
Proof. induction n as [|n IH]; intros b h H; [exact H|]. cbn [ref_body]. apply IH. apply ref_block_ok. Qed.

Lemma body_rest n : forall b h, snd (ref_body n b h) = skipn (16 * n) b.
Proof.
  induction n as [|n IH]; intros b h; [reflexivity|]. cbn [ref_body]. rewrite IH, skipn_skipn'. f_equal. lia.
Qed.

Lemma firstn_app_le {A} n (a b : list A) : n <= length a -> firstn n (a ++ b) = firstn n a.
Proof. intros H. rewrite firstn_app. replace (n - length a) with 0 by lia. rewrite firstn_O, app_nil_r. reflexivity. Qed.
Lemma skipn_app_le {A} n (a b : list A) : n <= length a -> skipn n (a ++ b) = skipn n a ++ b.
Proof. intros H. rewrite skipn_app. replace (n - length a) with 0 by lia. rewrite skipn_O. reflexivity. Qed.

Lemma body_prefix n : forall pre rest h, length pre = 16 * n -> fst (ref_body n (pre ++ rest) h) = fst (ref_body n pre h).
Proof.
  induction n as [|n IH]; intros pre rest h L; [reflexivity|]. cbn [ref_body].
  rewrite !firstn_app_le, !skipn_app_le by lia. rewrite firstn_app_le by (rewrite skipn_length; lia).
  apply IH. rewrite skipn_length. lia.
Qed.

(** With the same remaining bytes the body is injective in the state. *)
Lemma body_state_inj n : forall b h h', is_bytes b -> ok_state h -> ok_state h' ->
  fst (ref_body n b h) = fst (ref_body n b h') -> h = h'.
Proof.
  induction n as [|n IH]; intros b h h' Hb H H' E; [exact E|]. cbn [ref_body] in E.
  apply IH in E; auto using is_bytes_skipn, ref_block_ok.
  apply block_inj in E; auto; try (apply first8_lt; auto using is_bytes_skipn).
  apply E.
Qed.

Lemma ref_separates pre mid mid' post seed :
  is_bytes pre -> is_bytes mid -> is_bytes mid' -> is_bytes post -> (seed < 2 ^ 64)%N ->
  (exists n, length pre = 16 * n) -> length mid = length mid' ->
  length mid = 16 \/ (length mid < 16 /\ post = []) ->
  murmur3_x64_128 (pre ++ mid ++ post) seed = murmur3_x64_128 (pre ++ mid' ++ post) seed -> mid = mid'.
Proof.
  intros Hp Hm Hm' Hq Hs [n Ln] L C H. unfold murmur3_x64_128 in H.
  assert (LL : length (pre ++ mid' ++ post) = length (pre ++ mid ++ post)) by (rewrite !app_length; lia).
  rewrite LL in H. set (len := length (pre ++ mid ++ post)) in *.
  assert (S0 : ok_state (seed, seed)) by (split; auto).
  assert (Elen : len = 16 * n + length mid + length post) by (unfold len; rewrite !app_length; lia).
  set (q := len / 16) in *.
  pose proof (Nat.div_mod len 16 ltac:(discriminate)) as DM. fold q in DM.
  pose proof (Nat.mod_upper_bound len 16 ltac:(discriminate)) as MB.
  destruct (ref_body q (pre ++ mid ++ post) (seed, seed)) as [h t] eqn:E.
  destruct (ref_body q (pre ++ mid' ++ post) (seed, seed)) as [h' t'] eqn:E'.
  assert (HT : t = skipn (16 * q) (pre ++ mid ++ post)) by (rewrite <- body_rest with (h := (seed, seed)), E; reflexivity).
  assert (HT' : t' = skipn (16 * q) (pre ++ mid' ++ post)) by (rewrite <- body_rest with (h := (seed, seed)), E'; reflexivity).
  assert (OK : ok_state h) by (change h with (fst (h, t)); rewrite <- E; apply body_ok; auto).
  assert (OK' : ok_state h') by (change h' with (fst (h', t')); rewrite <- E'; apply body_ok; auto).
  assert (BT : is_bytes t) by (rewrite HT; apply is_bytes_skipn; repeat (apply Forall_app; split); auto).
  assert (BT' : is_bytes t') by (rewrite HT'; apply is_bytes_skipn; repeat (apply Forall_app; split); auto).
  assert (LT : length t = length t') by (rewrite HT, HT', !skipn_length, LL; reflexivity).
  assert (L16 : length t < 16) by (rewrite HT, skipn_length; fold len; lia).
  assert (P : h = fst (ref_body (q - n) (mid ++ post) (fst (ref_body n pre (seed, seed))))
              /\ h' = fst (ref_body (q - n) (mid' ++ post) (fst (ref_body n pre (seed, seed))))).
  { assert (n <= q) by (destruct C as [C|[C ->]]; cbn [length] in *; lia).
    replace q with (n + (q - n)) in E, E' by lia. rewrite body_app in E, E'.
    rewrite body_prefix in E, E' by auto. rewrite skipn_app, skipn_all2 in E, E' by lia.
    replace (16 * n - length pre) with 0 in E, E' by lia. rewrite skipn_O in E, E'. cbn [app] in E, E'.
    rewrite E, E'. auto. }
  destruct P as [P P']. set (g := fst (ref_body n pre (seed, seed))) in *.
  assert (G : ok_state g) by (apply body_ok; auto).
  apply final_inj in H; auto using tail_ok; try (apply N.mod_lt; discriminate).
  destruct H as [H1 H2]. apply lxor_cancel_r in H1, H2.
  assert (HE : ref_tail h t = ref_tail h' t').
  { destruct (ref_tail h t), (ref_tail h' t'). cbn [fst snd] in *. subst. reflexivity. }
  destruct C as [C|[C ->]].
  - (* a whole block *)
    assert (Hq1 : q - n = S (q - n - 1)) by (cbn in *; lia).
    assert (TE : t = t').
    { rewrite HT, HT'. replace (16 * q) with (length pre + (16 + 16 * (q - n - 1))) by lia.
      rewrite <- !skipn_skipn'. rewrite !(skipn_app (length pre)), !(skipn_all2 pre), Nat.sub_diag, !skipn_O by lia. cbn [app].
      rewrite !(skipn_app 16), !(skipn_all2 (n:=16)) by lia. replace (16 - length mid) with 0 by lia.
      replace (16 - length mid') with 0 by lia. rewrite !skipn_O. reflexivity. }
    destruct (tail_inj h h' t t') as [HH _]; auto.
    rewrite Hq1 in P, P'. cbn [ref_body] in P, P'.
    rewrite !(skipn_app 16), !(skipn_all2 (n:=16)) in P, P' by lia.
    replace (16 - length mid) with 0 in P by lia. replace (16 - length mid') with 0 in P' by lia.
    rewrite skipn_O in P, P'. cbn [app] in P, P'. rewrite HH, P' in P.
    apply body_state_inj in P; auto using ref_block_ok.
    rewrite !(skipn_app_le 8), !(firstn_app_le 8) in P by (rewrite ?skipn_length; lia).
    symmetry in P.
    apply block_inj in P; auto; try (apply first8_lt; auto using is_bytes_skipn).
    destruct P as (_ & P1 & P2).
    apply unle_inj in P1, P2; auto using is_bytes_firstn, is_bytes_skipn; try (rewrite !firstn_length, ?skipn_length; lia).
    rewrite !firstn_all2 in P2 by (rewrite skipn_length; lia).
    rewrite <- (firstn_skipn 8 mid), P1, P2. apply firstn_skipn.
  - (* the tail *)
    cbn [length] in *. assert (q - n = 0) by lia. rewrite H in P, P'. cbn [ref_body fst] in P, P'.
    destruct (tail_inj h h' t t') as [_ TT]; auto. { left. congruence. }
    rewrite HT, HT' in TT. replace (16 * q) with (length pre) in TT by lia.
    rewrite !(skipn_app (length pre)), !(skipn_all2 pre), Nat.sub_diag, !skipn_O in TT by lia. cbn [app] in TT.
    rewrite !app_nil_r in TT. exact TT.
Qed.

(** Two byte keys of the same length that differ within one aligned 16-byte block (or within the tail) never have
    the same 128-bit hash. *)
Theorem murmur3_one_block_separates pre mid mid' post seed :
  is_bytes (pre ++ mid ++ post) -> is_bytes mid' -> (seed < 2 ^ 64)%N ->
  length pre mod 16 = 0 -> length mid = length mid' ->
  length mid = 16 \/ (length mid < 16 /\ post = []) -> mid <> mid' ->
  hash_byte_arr (pre ++ mid ++ post) 0 (length (pre ++ mid ++ post)) seed <>
  hash_byte_arr (pre ++ mid' ++ post) 0 (length (pre ++ mid' ++ post)) seed.
Proof.
  intros Hb Hm' Hs Lp L C D H. assert (Hb' := Hb). apply Forall_app in Hb'. destruct Hb' as [Hp Hb'].
  apply Forall_app in Hb'. destruct Hb' as [Hm Hq].
  rewrite !murmur3_bytes_reference in H; auto.
  2:{ repeat (apply Forall_app; split); auto. }
  apply D. injection H as H. apply (ref_separates pre mid mid' post seed); auto.
  - exists (length pre / 16). pose proof (Nat.div_mod (length pre) 16 ltac:(discriminate)). lia.
Qed.

(** Keys of at most 16 bytes and one length: different keys, different hashes. *)
Theorem murmur3_short_keys_injective a b seed : is_bytes a -> is_bytes b -> (seed < 2 ^ 64)%N ->
  length a = length b -> length a <= 16 -> a <> b ->
  hash_byte_arr a 0 (length a) seed <> hash_byte_arr b 0 (length b) seed.
Proof.
  intros Ha Hb Hs L L16 D. pose proof (murmur3_one_block_separates [] a b [] seed) as T.
  cbn [app] in T. rewrite !app_nil_r in T. apply T; auto.
  destruct (Nat.eq_dec (length a) 16) as [E|E]; [left; exact E|right; split; [lia|reflexivity]].
Qed.

Lemma to_u64_inj x y : is_int64 x -> is_int64 y -> to_u64 x = to_u64 y -> x = y.
Proof.
  unfold is_int64, to_u64. intros Hx Hy H. apply (f_equal Z.of_N) in H.
  pose proof (Z.mod_pos_bound x (2 ^ 64) ltac:(lia)). pose proof (Z.mod_pos_bound y (2 ^ 64) ltac:(lia)).
  rewrite !Z2N.id in H by lia.
  pose proof (Z.div_mod x (2 ^ 64) ltac:(lia)) as E1. pose proof (Z.div_mod y (2 ^ 64) ltac:(lia)) as E2.
  rewrite H in E1. set (p := (x / 2 ^ 64)%Z) in *. set (r := (y / 2 ^ 64)%Z) in *. set (w := (y mod 2 ^ 64)%Z) in *.
  assert (Pw : (2 ^ 64 = 18446744073709551616)%Z) by reflexivity. assert (P63 : (2 ^ 63 = 9223372036854775808)%Z) by reflexivity.
  rewrite Pw, P63 in *. lia.
Qed.

Lemma int64_bytes_inj x y : is_int64 x -> is_int64 y -> int64_bytes x = int64_bytes y -> x = y.
Proof.
  intros Hx Hy H. apply to_u64_inj; auto. apply (f_equal unle) in H. unfold int64_bytes in H.
  rewrite !unle_le_small in H; [exact H|apply to_u64_lt|apply to_u64_lt].
Qed.

Theorem murmur3_int64_injective x y seed : is_int64 x -> is_int64 y -> (seed < 2 ^ 64)%N -> x <> y ->
  hash_int64_slice [x] 0 1 seed <> hash_int64_slice [y] 0 1 seed.
Proof.
  intros Hx Hy Hs D. change 1 with (length [x]) at 1. change 1 with (length [y]). rewrite !int64_slice_as_bytes.
  cbn [flat_map]. rewrite !app_nil_r.
  assert (Lx : length (int64_bytes x) = 8) by apply le_length. assert (Ly : length (int64_bytes y) = 8) by apply le_length.
  apply murmur3_short_keys_injective; auto; try apply le_bytes; try lia.
  intros E. apply D. apply int64_bytes_inj; auto.
Qed.

Lemma some_inj {A} (a b : A) : Some a = Some b -> a = b.
Proof. intros H. injection H as H. exact H. Qed.

Lemma single_inj m x y len len' : ok_state m -> (x < 2 ^ 64)%N -> (y < 2 ^ 64)%N -> (len < 2 ^ 64)%N -> (len' < 2 ^ 64)%N ->
  finalMix128 m x 0 len = finalMix128 m y 0 len' -> x = y /\ len = len'.
Proof.
  intros [A B] Hx Hy L L' H. rewrite !finalMix_code, !mixk2_0, !N.lxor_0_r in H.
  apply final_inj in H; auto; try (split; cbn [fst snd]; auto; apply lxor_lt; auto using ref_mixk1_lt).
  cbn [fst snd] in H. destruct H as [H1 H2]. apply lxor_cancel_l in H2. subst len'. split; auto.
  apply lxor_cancel_r in H1. apply lxor_cancel_l in H1. apply mixk1_inj; auto.
Qed.

Theorem murmur3_int32_injective x y seed : is_int32 x -> is_int32 y -> (seed < 2 ^ 64)%N -> x <> y ->
  hash_int32_slice [x] 0 1 seed <> hash_int32_slice [y] 0 1 seed.
Proof.
  intros Hx Hy Hs D H.
  change (hash_int32_slice [x] 0 1 seed) with (Some (finalMix128 (seed, seed) (to_u64 x) 0 4)) in H.
  change (hash_int32_slice [y] 0 1 seed) with (Some (finalMix128 (seed, seed) (to_u64 y) 0 4)) in H.
  apply some_inj in H. apply single_inj in H; auto using to_u64_lt; try reflexivity; [|split; auto].
  apply D. apply to_u64_inj; try apply H; unfold is_int32, is_int64 in *; lia.
Qed.

(** An int32 and an int64 never have the same 128-bit hash, whatever their values: the length is hashed too. *)
Theorem murmur3_int32_int64_differ x y seed : (seed < 2 ^ 64)%N ->
  hash_int32_slice [x] 0 1 seed <> hash_int64_slice [y] 0 1 seed.
Proof.
  intros Hs H.
  change (hash_int32_slice [x] 0 1 seed) with (Some (finalMix128 (seed, seed) (to_u64 x) 0 4)) in H.
  change (hash_int64_slice [y] 0 1 seed) with (Some (finalMix128 (seed, seed) (to_u64 y) 0 8)) in H.
  apply some_inj in H. apply single_inj in H; auto using to_u64_lt; try reflexivity; [|split; auto].
  destruct H; discriminate.
Qed.

(** Refuted: "different slices of int32 of one length within one block have different hashes".  The second
    element of each pair is not hashed at all, for any seed. *)
Theorem murmur3_int32_slices_apart_refuted :
  ~ (forall a b seed, Forall is_int32 a -> Forall is_int32 b -> length a = length b -> length a <= 4 ->
       (seed < 2 ^ 64)%N -> a <> b -> hash_int32_slice a 0 (length a) seed <> hash_int32_slice b 0 (length b) seed).
Proof.
  intros H. apply (H [1; 2]%Z [1; 3]%Z 9001%N); try reflexivity; try discriminate; repeat constructor; try discriminate; try reflexivity.
Qed.

(** Non-vacuity: two 20-byte keys that differ in their first block, two negative int64s, and an int32 pair. *)
Example murmur3_apart_case :
  hash_byte_arr ([] ++ repeat 7%N 16 ++ [1;2;3;4]%N) 0 20 9001 <> hash_byte_arr ([] ++ repeat 9%N 16 ++ [1;2;3;4]%N) 0 20 9001.
Proof.
  apply (murmur3_one_block_separates [] (repeat 7%N 16) (repeat 9%N 16) [1;2;3;4]%N); try reflexivity; auto; try discriminate;
    repeat (constructor; try reflexivity).
Qed.
Example murmur3_int64_case : hash_int64_slice [(-1)%Z] 0 1 9001 <> hash_int64_slice [(-2)%Z] 0 1 9001.
Proof. apply murmur3_int64_injective; unfold is_int64; try lia; discriminate. Qed.
Example murmur3_string_case :
  hash_char_slice [97;98;99]%N 0 3 9001 = hash_byte_arr [97;98;99;0;0;0]%N 0 6 9001 /\
  hash_char_slice [97;98;99]%N 0 3 9001 <> hash_byte_arr [97;98;99]%N 0 3 9001.
Proof. split; [vm_compute; reflexivity|vm_compute; discriminate]. Qed.

Print Assumptions murmur3_bytes_reference.
Print Assumptions murmur3_int64_reference.
Print Assumptions murmur3_string_reference.
Print Assumptions murmur3_int32_even_positions.
Print Assumptions murmur3_int32_reference.
Print Assumptions murmur3_one_block_separates.
Print Assumptions murmur3_int64_injective.
Print Assumptions murmur3_int32_int64_differ.
Print Assumptions murmur3_int32_slices_apart_refuted.
