(** * Which values are the same item of a Bloom filter: the property C73. *)
From Verif Require Import Base Bytes GoInt BloomModel BloomProofs BloomProps Murmur3Model Murmur3Props KeysModel KeysProps BloomKeysModel.
Local Open Scope nat_scope.

(** The definition of XXH64 on published values: "", "a", "abc" and a 39-byte text. *)
Definition spam : list N := (* "Nobody inspects the spammish repetition" *)
  [78;111;98;111;100;121;32;105;110;115;112;101;99;116;115;32;116;104;101;32;115;112;97;109;109;105;115;104;32;
   114;101;112;101;116;105;116;105;111;110]%N.
Example xxh64_vectors :
  xxh64 [] 0 = 0xEF46DB3751D8E999%N /\ xxh64 [97]%N 0 = 0xD24EC4F1A98C6E5B%N /\
  xxh64 [97; 98; 99]%N 0 = 0x44BC2CF5AD770999%N /\ xxh64 spam 0 = 0xfbcea83c8a378bf1%N.
Proof. vm_compute. repeat split; reflexivity. Qed.

(** ** Specification *)

(** The byte string an item stands for; None: every method ignores it. *)
Definition bloom_key (x : bloom_input) : option (list N) :=
  match x with
  | BUint64 v => Some (le 8 v)
  | BInt64 v => Some (int64_bytes v)
  | BString s => if (length s =? 0)%nat then None else Some s
  | BSlice b => Some b
  | BFloat64 b => Some (le 8 (canonical_bits b))
  | BInt64Array l => if (length l =? 0)%nat then None else Some (flat_map int64_bytes l)
  | BFloat64Array l => if (length l =? 0)%nat then None else Some (flat_map (le 8) l)
  end.

Definition ok_bloom (x : bloom_input) : Prop :=
  match x with
  | BUint64 v | BFloat64 v => (v < 2 ^ 64)%N
  | BInt64 v => is_int64 v
  | BString b | BSlice b => is_bytes b
  | BInt64Array l => Forall is_int64 l
  | BFloat64Array l => Forall (fun v => (v < 2 ^ 64)%N) l
  end.

(** ** The hash of a 64-bit word *)

Lemma rotate_code x k : (k <= 64)%N -> (x < 2 ^ 64)%N -> rotate_left64 x k = xx_rotl k x.
Proof. intros Hk Hx. unfold rotate_left64. rewrite rotl_code by auto. reflexivity. Qed.

Lemma xxh64_word v seed : (v < 2 ^ 64)%N ->
  xxh64 (le 8 v) seed =
  xx_avalanche ((xx_rotl 27 (N.lxor (((seed + P5) mod 2 ^ 64 + 8) mod 2 ^ 64) (xx_round 0 v)) * P1 + P4) mod 2 ^ 64)%N.
Proof.
  intros Hv. unfold xxh64. rewrite le_length. change (N.of_nat 8 mod 2 ^ 64)%N with 8%N.
  change (32 <=? 8) with false. cbv iota beta. rewrite le_length. change (8 / 8) with 1.
  cbn [xx_words]. rewrite (firstn_all2 (le 8 v)) by (rewrite le_length; auto). rewrite (skipn_all2 (le 8 v)) by (rewrite le_length; auto).
  rewrite unle_le_small by exact Hv. reflexivity.
Qed.

Lemma add64_lt x y : (add64 x y < 2 ^ 64)%N. Proof. apply u64_lt. Qed.
Lemma mul64_lt x y : (mul64 x y < 2 ^ 64)%N. Proof. apply u64_lt. Qed.

(** The optimized hash of an integer is XXH64 of its eight bytes. *)
Theorem hash_long_is_xxh64 v seed : (v < 2 ^ 64)%N -> (seed < 2 ^ 64)%N -> hash_long_optimized v seed = xxh64 (le 8 v) seed.
Proof.
  intros Hv Hs. rewrite xxh64_word by auto. unfold hash_long_optimized, xx_avalanche, xx_round. cbv zeta.
  rewrite N.add_0_l.
  rewrite (rotate_code (mul64 v P2) 31) by (try apply mul64_lt; discriminate).
  rewrite (rotate_code (N.lxor _ _) 27) by (try discriminate; apply lxor_lt; auto using add64_lt, mul64_lt).
  rewrite !N.shiftr_div_pow2. unfold add64, mul64, u64.
  rewrite N.add_mod_idemp_l by discriminate. reflexivity.
Qed.

Lemma hash_long_lt v seed : (hash_long_optimized v seed < 2 ^ 64)%N.
Proof.
  unfold hash_long_optimized. cbv zeta. match goal with |- (N.lxor ?a _ < _)%N => assert (Ha : (a < 2 ^ 64)%N) by apply mul64_lt; set (h := a) in * end.
  apply lxor_lt; auto. rewrite N.shiftr_div_pow2. eapply N.le_lt_trans; [apply N.div_le_upper_bound with (q := h)|exact Ha]; [discriminate|].
  change (2 ^ 32)%N with 4294967296%N. lia.
Qed.

Lemma xshift_inj k x y : (0 < k)%N -> N.lxor x (x / 2 ^ k) = N.lxor y (y / 2 ^ k) -> x = y.
Proof.
  intros Hk H. rewrite <- !N.shiftr_div_pow2 in H. apply N.lxor_eq. set (d := N.lxor x y).
  assert (E : N.shiftr d k = d).
  { unfold d. rewrite N.shiftr_lxor. apply N.lxor_eq.
    assert (Q : N.lxor (N.lxor x (N.shiftr x k)) (N.lxor y (N.shiftr y k)) = 0%N) by (rewrite H; apply N.lxor_nilpotent).
    rewrite <- Q. apply N.bits_inj. intros i. rewrite !N.lxor_spec. destruct (N.testbit x i), (N.testbit y i), (N.testbit (N.shiftr x k) i), (N.testbit (N.shiftr y k) i); reflexivity. }
  destruct (N.eq_dec d 0) as [|D]; auto. exfalso. rewrite N.shiftr_div_pow2 in E.
  assert (d / 2 ^ k < d)%N; [|lia]. apply N.div_lt; [lia|].
  apply N.lt_le_trans with (2 ^ 1)%N; [reflexivity|]. apply N.pow_le_mono_r; lia.
Qed.

Lemma xshift_lt k x : (x < 2 ^ 64)%N -> (N.lxor x (x / 2 ^ k) < 2 ^ 64)%N.
Proof.
  intros Hx. apply lxor_lt; auto. apply N.le_lt_trans with x; auto. apply N.div_le_upper_bound; [apply N.pow_nonzero; discriminate|].
  assert (2 ^ k <> 0)%N by (apply N.pow_nonzero; discriminate). nia.
Qed.

Lemma mulP1_inj x y : (x < 2 ^ 64)%N -> (y < 2 ^ 64)%N -> ((x * P1) mod 2 ^ 64 = (y * P1) mod 2 ^ 64)%N -> x = y.
Proof. apply mul_inj with 614540362697595703%N. reflexivity. Qed.
Lemma mulP2_inj x y : (x < 2 ^ 64)%N -> (y < 2 ^ 64)%N -> ((x * P2) mod 2 ^ 64 = (y * P2) mod 2 ^ 64)%N -> x = y.
Proof. apply mul_inj with 839798700976720815%N. reflexivity. Qed.
Lemma mulP3_inj x y : (x < 2 ^ 64)%N -> (y < 2 ^ 64)%N -> ((x * P3) mod 2 ^ 64 = (y * P3) mod 2 ^ 64)%N -> x = y.
Proof. apply mul_inj with 16855272203555305545%N. reflexivity. Qed.

Lemma avalanche_inj x y : (x < 2 ^ 64)%N -> (y < 2 ^ 64)%N -> xx_avalanche x = xx_avalanche y -> x = y.
Proof.
  intros Hx Hy H. unfold xx_avalanche in H. cbv zeta in H.
  apply xshift_inj in H; [|reflexivity]. apply mulP3_inj in H; try (apply xshift_lt; apply N.mod_lt; discriminate).
  apply xshift_inj in H; [|reflexivity]. apply mulP2_inj in H; try (apply xshift_lt; auto).
  apply xshift_inj in H; [auto|reflexivity].
Qed.

Lemma xx_rotl_lt k x : (k <= 64)%N -> (x < 2 ^ 64)%N -> (xx_rotl k x < 2 ^ 64)%N.
Proof. apply rotl_lt. Qed.
Lemma xx_rotl_inj k x y : (k <= 64)%N -> (x < 2 ^ 64)%N -> (y < 2 ^ 64)%N -> xx_rotl k x = xx_rotl k y -> x = y.
Proof. apply rotl_inj. Qed.

Lemma xx_round_lt a v : (xx_round a v < 2 ^ 64)%N. Proof. unfold xx_round. apply N.mod_lt. discriminate. Qed.
Lemma xx_round_inj v w : (v < 2 ^ 64)%N -> (w < 2 ^ 64)%N -> xx_round 0 v = xx_round 0 w -> v = w.
Proof.
  intros Hv Hw H. unfold xx_round in H. rewrite !N.add_0_l in H.
  apply mulP1_inj in H; try (apply xx_rotl_lt; [discriminate|apply N.mod_lt; discriminate]).
  apply xx_rotl_inj in H; try discriminate; try (apply N.mod_lt; discriminate). apply mulP2_inj in H; auto.
Qed.

(** Different 64-bit words have different hashes, under every seed. *)
Theorem xxh64_words_injective v w seed : (v < 2 ^ 64)%N -> (w < 2 ^ 64)%N -> v <> w -> xxh64 (le 8 v) seed <> xxh64 (le 8 w) seed.
Proof.
  intros Hv Hw D H. apply D. rewrite !xxh64_word in H by auto.
  apply avalanche_inj in H; try (apply N.mod_lt; discriminate).
  set (s := (((seed + P5) mod 2 ^ 64 + 8) mod 2 ^ 64)%N) in *. assert (Hs : (s < 2 ^ 64)%N) by (apply N.mod_lt; discriminate).
  assert (B : forall u, (xx_rotl 27 (N.lxor s (xx_round 0 u)) < 2 ^ 64)%N) by (intros u; apply xx_rotl_lt; [discriminate|apply lxor_lt; auto; apply xx_round_lt]).
  rewrite <- (N.add_mod_idemp_l (_ * P1)), <- (N.add_mod_idemp_l (xx_rotl 27 (N.lxor s (xx_round 0 w)) * P1)) in H by discriminate.
  apply add_inj_r in H; try (apply N.mod_lt; discriminate). apply mulP1_inj in H; auto.
  apply xx_rotl_inj in H; try discriminate; try (apply lxor_lt; auto; apply xx_round_lt).
  apply lxor_cancel_l in H. apply xx_round_inj in H; auto.
Qed.

(** ** The typed methods *)

Lemma bloom_float_canonical b : (b < 2 ^ 64)%N -> bloom_float_bits b = canonical_bits b.
Proof.
  intros H. unfold bloom_float_bits, canonical_bits, f64_is_zero, f64_is_nan. rewrite land_mod63.
  destruct (b mod 2 ^ 63 =? 0)%N; [reflexivity|]. destruct (0x7ff0000000000000 <? b mod 2 ^ 63)%N; [reflexivity|].
  destruct (N.eqb_spec b 0x7ff0000000000000); [auto|]. destruct (N.eqb_spec b 0xfff0000000000000); auto.
Qed.

Lemma array_int64 l : array_bytes (map Murmur3Model.to_u64 l) = flat_map int64_bytes l.
Proof. unfold array_bytes. induction l as [|a l IH]; [reflexivity|]. cbn [map flat_map]. rewrite IH. reflexivity. Qed.

(** Every typed method works with XXH64 of the item's byte string, hashed twice. *)
Theorem bloom_typed_hashes seed x : ok_bloom x -> (seed < 2 ^ 64)%N ->
  bloom_hashes seed x = option_map (fun b => (xxh64 b seed, xxh64 b (xxh64 b seed))) (bloom_key x).
Proof.
  intros Hx Hs.
  assert (W : forall v, (v < 2 ^ 64)%N -> compute_hashes_for_long seed v = (xxh64 (le 8 v) seed, xxh64 (le 8 v) (xxh64 (le 8 v) seed))).
  { intros v Hv. unfold compute_hashes_for_long. rewrite <- (hash_long_is_xxh64 v seed) by auto.
    rewrite <- hash_long_is_xxh64 by (auto using hash_long_lt). reflexivity. }
  destruct x as [v|v|s|b|b|l|l]; cbn [ok_bloom] in Hx; cbn [bloom_hashes bloom_key].
  - rewrite W by auto. reflexivity.
  - rewrite W by (apply to_u64_lt). reflexivity.
  - destruct s; reflexivity.
  - reflexivity.
  - rewrite bloom_float_canonical by auto. reflexivity.
  - destruct l as [|a l]; [reflexivity|]. rewrite array_int64. reflexivity.
  - destruct l; reflexivity.
Qed.

(** Items with the same byte string are interchangeable in every method and every state. *)
Theorem bloom_same_key f x y : ok_bloom x -> ok_bloom y -> (bf_seed f < 2 ^ 64)%N -> bloom_key x = bloom_key y ->
  bf_update bloom_hashes f x = bf_update bloom_hashes f y /\
  bf_query bloom_hashes f x = bf_query bloom_hashes f y /\
  bf_query_and_update bloom_hashes f x = bf_query_and_update bloom_hashes f y.
Proof.
  intros Hx Hy Hs E. unfold bf_update, bf_query, bf_query_and_update. rewrite !bloom_typed_hashes by auto. rewrite E. auto.
Qed.

(** Ignored items: no update changes the filter, every query answers false. *)
Theorem bloom_ignored f x : bloom_key x = None ->
  bf_update bloom_hashes f x = Some f /\ bf_query bloom_hashes f x = Some (f, false) /\ bf_query_and_update bloom_hashes f x = Some (f, false).
Proof.
  intros E. unfold bf_update, bf_query, bf_query_and_update.
  assert (H : bloom_hashes (bf_seed f) x = None); [|rewrite H; auto].
  destruct x as [v|v|s|b|b|l|l]; cbn [bloom_key] in E; try discriminate.
  - destruct s; [reflexivity|discriminate].
  - destruct l; [reflexivity|discriminate].
  - destruct l; [reflexivity|discriminate].
Qed.

Lemma valid_seed (l : @life bloom_input) : valid l -> (seed_of l < 2 ^ 64)%N.
Proof. unfold seed_of. induction l; cbn [valid config]; intros V; auto; try (apply V); try (apply IHl; apply V). all: apply IHl1; apply V. Qed.

(** No false negatives across types: what was added as one type is found as every other with the same bytes. *)
Theorem bloom_typed_no_false_negatives (l : life) x y : valid l -> ok_bloom x -> ok_bloom y ->
  inserted l x -> bloom_key x = bloom_key y -> bloom_key x <> None ->
  exists f f', run bloom_hashes l = Some f /\ bf_query bloom_hashes f y = Some (f', true).
Proof.
  intros V Hx Hy I E N0. pose proof (valid_seed l V) as HS.
  destruct (bloom_no_false_negatives bloom_hashes l x V) as (f & f' & R & Q).
  - rewrite bloom_typed_hashes by auto. destruct (bloom_key x); [discriminate|congruence].
  - exact I.
  - exists f, f'. split; auto. destruct (life_inv bloom_hashes l V) as (f0 & R0 & _ & C & _). rewrite R in R0. injection R0 as <-.
    unfold seed_of in HS. rewrite C in HS. cbn [snd] in HS.
    destruct (bloom_same_key f x y) as (_ & E2 & _); auto. rewrite <- E2. exact Q.
Qed.

Lemma bloom_key_inj a b : Some a = Some b -> a = b :> list N.
Proof. apply some_inj. Qed.

(** Integers: by value, in every spelling; floats: by IEEE value. *)
Theorem bloom_integer_keys v : is_int64 v ->
  bloom_key (BUint64 (Z.to_N (v mod 2 ^ 64))) = bloom_key (BInt64 v) /\
  bloom_key (BSlice (int64_bytes v)) = bloom_key (BInt64 v) /\
  bloom_key (BInt64Array [v]) = bloom_key (BInt64 v) /\
  (forall w, is_int64 w -> bloom_key (BInt64 w) = bloom_key (BInt64 v) -> w = v).
Proof.
  intros Hv. repeat split.
  intros w Hw E. apply bloom_key_inj in E. apply int64_bytes_inj; auto.
Qed.

Theorem bloom_text_keys s : s <> [] -> bloom_key (BString s) = bloom_key (BSlice s).
Proof. destruct s; [congruence|reflexivity]. Qed.

Theorem bloom_float_keys a b : (a < 2 ^ 64)%N -> (b < 2 ^ 64)%N ->
  (bloom_key (BFloat64 a) = bloom_key (BFloat64 b) <-> f64_value a = f64_value b).
Proof.
  intros Ha Hb. rewrite <- canonical_value by auto. cbn [bloom_key]. split; [|intros ->; reflexivity].
  intros E. apply bloom_key_inj in E. apply le8_inj in E; auto using canonical_lt.
Qed.

Lemma bloom_first_hash seed v h0 h1 : is_int64 v -> (seed < 2 ^ 64)%N ->
  bloom_hashes seed (BInt64 v) = Some (h0, h1) -> h0 = xxh64 (le 8 (Murmur3Model.to_u64 v)) seed.
Proof.
  intros Hv Hs E. assert (E1 : h0 = hash_long_optimized (Murmur3Model.to_u64 v) seed).
  { exact (f_equal (fun o => match o with Some (a, _) => a | None => h0 end) (eq_sym E)). }
  rewrite E1. apply hash_long_is_xxh64; auto. apply to_u64_lt.
Qed.

(** Different integers have different first hashes (they can still share all their bits of a filter). *)
Theorem bloom_integers_hash_apart v w seed h0 h1 g0 g1 : is_int64 v -> is_int64 w -> v <> w -> (seed < 2 ^ 64)%N ->
  bloom_hashes seed (BInt64 v) = Some (h0, h1) -> bloom_hashes seed (BInt64 w) = Some (g0, g1) -> h0 <> g0.
Proof.
  intros Hv Hw D Hs E1 E2 H. apply bloom_first_hash in E1, E2; auto. rewrite E1, E2 in H. revert H.
  apply xxh64_words_injective; try apply to_u64_lt. intros E. apply D. apply to_u64_inj; auto.
Qed.

(** ** Findings *)

Definition found_after (added asked : bloom_input) : option bool :=
  do f <- new_bloom 10000 5 123; do f <- bf_update bloom_hashes f added; do (_, b) <- bf_query bloom_hashes f asked; Some b.

(** Arrays of floats are hashed by their bits: an equal array is not found when a zero has the other sign. *)
Theorem bloom_float_arrays_by_value_refuted :
  ~ (forall a b, Forall2 (fun x y => (x < 2 ^ 64)%N /\ (y < 2 ^ 64)%N /\ f64_value x = f64_value y) a b -> a <> [] ->
       found_after (BFloat64Array a) (BFloat64Array b) = Some true).
Proof.
  intros H. specialize (H [0%N] [0x8000000000000000%N]).
  assert (F : found_after (BFloat64Array [0%N]) (BFloat64Array [0x8000000000000000%N]) = Some false) by (vm_compute; reflexivity).
  rewrite F in H. discriminate H; [|discriminate]. constructor; [|constructor]. split; [reflexivity|]. split; [reflexivity|]. vm_compute. reflexivity.
Qed.

(** An empty string is ignored, the empty byte slice is an item. *)
Theorem bloom_empty_text_as_slice_refuted :
  ~ (forall s, is_bytes s -> found_after (BSlice s) (BString s) = Some true).
Proof.
  intros H. specialize (H [] ltac:(constructor)).
  assert (F : found_after (BSlice []) (BString []) = Some false) by (vm_compute; reflexivity). rewrite F in H. discriminate H.
Qed.

(** ** Non-vacuity *)

Example bloom_keys_found : found_after (BInt64 (-5)) (BUint64 18446744073709551611) = Some true /\
  found_after (BInt64 5) (BSlice [5; 0; 0; 0; 0; 0; 0; 0]%N) = Some true /\
  found_after (BFloat64 0) (BFloat64 0x8000000000000000) = Some true /\
  found_after (BSlice []) (BSlice []) = Some true /\ found_after (BInt64 5) (BInt64 6) = Some false /\
  found_after (BString spam) (BSlice spam) = Some true.
Proof. vm_compute. repeat split; reflexivity. Qed.

Example bloom_keys_life :
  let l := Serde (Union (Update (New 1000 3 7) (BInt64 5)) (Update (New 1000 3 7) (BString spam))) in
  valid l /\ inserted l (BString spam) /\ ok_bloom (BString spam) /\ bloom_key (BString spam) <> None.
Proof.
  cbv zeta. split; [|split; [|split]].
  - cbn [valid]. repeat split; try discriminate; reflexivity.
  - cbn [inserted]. right. split; [reflexivity|]. left. reflexivity.
  - cbn [ok_bloom]. unfold spam. repeat constructor.
  - discriminate.
Qed.

Print Assumptions hash_long_is_xxh64.
Print Assumptions xxh64_words_injective.
Print Assumptions bloom_typed_hashes.
Print Assumptions bloom_same_key.
Print Assumptions bloom_ignored.
Print Assumptions bloom_typed_no_false_negatives.
Print Assumptions bloom_integer_keys.
Print Assumptions bloom_text_keys.
Print Assumptions bloom_float_keys.
Print Assumptions bloom_integers_hash_apart.
Print Assumptions bloom_float_arrays_by_value_refuted.
Print Assumptions bloom_empty_text_as_slice_refuted.
