(** * Which values count as the same key: the property C72. *)
From Verif Require Import Base Bytes GoInt QuickSelectModel ProbeModel BitPackModel CpcTable CpcModel HllModel HashtableModel
  TupleModel ThetaModel ThetaProofs ThetaProps Murmur3Model Murmur3Props KeysModel.
Local Open Scope nat_scope.

(** ** Specification *)

(** The value of a float as the IEEE standard defines it: NaN, an infinity, or a multiple of 2^-1074, the smallest
    positive float64 (a finite float32 is a multiple of 2^-149 = 2^925 * 2^-1074). *)
Inductive fvalue := VNaN | VInf (negative : bool) | VFinite (units : Z).

Definition signed (neg : bool) (g : N) : Z := if neg then (- Z.of_N g)%Z else Z.of_N g.
Definition decode_float (expbits fracbits : N) (scale : N) (bits : N) : fvalue :=
  let neg := (bits / 2 ^ (expbits + fracbits) =? 1)%N in
  let e := (bits / 2 ^ fracbits mod 2 ^ expbits)%N in
  let m := (bits mod 2 ^ fracbits)%N in
  if (e =? 2 ^ expbits - 1)%N then (if (m =? 0)%N then VInf neg else VNaN)
  else VFinite (signed neg ((if (e =? 0)%N then m else (2 ^ fracbits + m) * 2 ^ (e - 1)) * 2 ^ scale)).
Definition f64_value : N -> fvalue := decode_float 11 52 0.
Definition f32_value : N -> fvalue := decode_float 8 23 925.

(** What a typed value is for a theta or tuple sketch: a byte string, or a negative integer of at most 32 bits. *)
Inductive key := KBytes (b : list N) | KNegInt32 (v : Z).

Definition canonical_bits (bits : N) : N :=
  (if bits mod 2 ^ 63 =? 0 then 0                                      (* 0.0 and -0.0 *)
   else if 0x7ff0000000000000 <? bits mod 2 ^ 63 then 0x7ff8000000000000 (* every NaN *)
   else bits)%N.

Definition int32_key (v : Z) : key := if (0 <=? v)%Z then KBytes (le 4 (Z.to_N v)) else KNegInt32 v.

Definition key_of (x : input) : option key :=
  match x with
  | XUint64 v | XUint32 v => Some (KBytes (le 8 v))
  | XInt64 v => Some (KBytes (int64_bytes v))
  | XInt32 v | XInt16 v | XInt8 v => Some (int32_key v)
  | XUint16 v | XUint8 v => Some (KBytes (le 4 v))
  | XFloat64 b => Some (KBytes (le 8 (canonical_bits b)))
  | XFloat32 b => Some (KBytes (le 8 (canonical_bits (widen32 b))))
  | XString [] => None
  | XString s => Some (KBytes (spread s))
  | XBytes b => Some (KBytes b)
  end.

(** The values the Go types allow. *)
Definition ok_input (x : input) : Prop :=
  match x with
  | XUint64 v => (v < 2 ^ 64)%N | XInt64 v => is_int64 v | XUint32 v => (v < 2 ^ 32)%N | XInt32 v => is_int32 v
  | XUint16 v => (v < 2 ^ 16)%N | XInt16 v => (- 2 ^ 15 <= v < 2 ^ 15)%Z | XUint8 v => (v < 2 ^ 8)%N
  | XInt8 v => (- 2 ^ 7 <= v < 2 ^ 7)%Z
  | XFloat64 b => (b < 2 ^ 64)%N | XFloat32 b => (b < 2 ^ 32)%N
  | XString s => is_bytes s | XBytes b => is_bytes b
  end.

(** The hash of a key: half of the first word of Murmur3; a negative int32 is hashed as a sign-extended word with
    the length of four bytes. *)
Definition key_hash (seed : N) (k : key) : N :=
  (match k with
   | KBytes b => fst (murmur3_x64_128 b seed)
   | KNegInt32 v => fst (ref_final (N.lxor seed (ref_mixk1 (Z.to_N (2 ^ 64 + v))), seed) 4)
   end / 2)%N.

(** The operation of the sketch (in the sense of C01) that a typed update is. *)
Definition op_of (seed : N) (x : input) : uop :=
  match key_of x with None => OpEmptyString | Some k => OpUpdate (key_hash seed k) end.

(** ** Proofs: hashes *)

Lemma half_some h1 h2 : half (Some (h1, h2)) = Some (Some (h1 / 2)%N).
Proof. unfold half. cbn [bindo]. rewrite N.shiftr_div_pow2. reflexivity. Qed.

Lemma half_ref h : half (Some h) = Some (Some (fst h / 2)%N).
Proof. destruct h. apply half_some. Qed.

Lemma hash_int64_key seed v : (seed < 2 ^ 64)%N -> hash_int64 seed v = Some (Some (key_hash seed (KBytes (int64_bytes v)))).
Proof.
  intros Hs. unfold hash_int64. change 1 with (length [v]). rewrite murmur3_int64_reference by auto.
  rewrite half_ref. cbn [flat_map]. rewrite app_nil_r. unfold key_hash. reflexivity.
Qed.

Lemma to_u64_wrap v : Murmur3Model.to_u64 (wrap64 v) = Murmur3Model.to_u64 v.
Proof.
  unfold Murmur3Model.to_u64, wrap64. f_equal. rewrite Zminus_mod_idemp_l. f_equal. lia.
Qed.

Lemma int64_bytes_N v : (v < 2 ^ 64)%N -> int64_bytes (wrap64 (Z.of_N v)) = le 8 v.
Proof.
  intros H. unfold int64_bytes. change (Z.to_N (wrap64 (Z.of_N v) mod 2 ^ 64)) with (Murmur3Model.to_u64 (wrap64 (Z.of_N v))).
  rewrite to_u64_wrap. unfold Murmur3Model.to_u64. rewrite Z.mod_small. 2:{ split; [lia|]. apply N2Z.inj_lt in H. exact H. }
  rewrite N2Z.id. reflexivity.
Qed.

Lemma int64_bytes_N' v : (v < 2 ^ 63)%N -> int64_bytes (Z.of_N v) = le 8 v.
Proof.
  intros H. rewrite <- (int64_bytes_N v) by (eapply N.lt_trans; [exact H|reflexivity]).
  rewrite wrap64_id; [reflexivity|]. split; [lia|]. apply N2Z.inj_lt in H. exact H.
Qed.

Lemma hash_int32_key seed v : is_int32 v -> (seed < 2 ^ 64)%N -> hash_int32 seed v = Some (Some (key_hash seed (int32_key v))).
Proof.
  intros Hv Hs. unfold hash_int32, int32_key. unfold is_int32 in Hv. destruct (Z.leb_spec 0 v) as [L|G].
  - rewrite murmur3_int32_reference by (auto; lia). rewrite half_ref. reflexivity.
  - change (hash_int32_slice [v] 0 1 seed) with (Some (finalMix128 (seed, seed) (Murmur3Model.to_u64 v) 0 4)).
    rewrite half_ref, finalMix_code, mixk2_0, N.lxor_0_r. cbn [fst snd].
    assert (E : Murmur3Model.to_u64 v = Z.to_N (2 ^ 64 + v)).
    { unfold Murmur3Model.to_u64. f_equal. symmetry. apply Z.mod_unique with (-1)%Z; lia. }
    rewrite E. reflexivity.
Qed.

Lemma land_mod63 b : N.land b (2 ^ 63 - 1) = (b mod 2 ^ 63)%N.
Proof. change (2 ^ 63 - 1)%N with (N.ones 63). apply N.land_ones. Qed.

Lemma canonical_lt b : (b < 2 ^ 64)%N -> (canonical_bits b < 2 ^ 64)%N.
Proof.
  intros H. unfold canonical_bits. destruct (b mod 2 ^ 63 =? 0)%N; [reflexivity|]. destruct (_ <? _)%N; [reflexivity|exact H].
Qed.

Lemma canonical_double_bits b : (b < 2 ^ 64)%N -> int64_bytes (canonical_double b) = le 8 (canonical_bits b).
Proof.
  intros H. unfold canonical_double, canonical_bits, f64_is_zero, f64_is_nan. rewrite land_mod63.
  destruct (b mod 2 ^ 63 =? 0)%N; [apply int64_bytes_N; reflexivity|].
  destruct (0x7ff0000000000000 <? b mod 2 ^ 63)%N; apply int64_bytes_N; [reflexivity|exact H].
Qed.

Lemma widen32_lt b : (b < 2 ^ 32)%N -> (widen32 b < 2 ^ 64)%N.
Proof.
  intros H. unfold widen32. rewrite !N.shiftl_mul_pow2, !N.shiftr_div_pow2.
  change (2 ^ 23 - 1)%N with (N.ones 23). change 255%N with (N.ones 8). rewrite !N.land_ones.
  set (e := (b / 2 ^ 23 mod 2 ^ 8)%N). set (m := (b mod 2 ^ 23)%N). set (s := (b / 2 ^ 31)%N).
  assert (He : (e < 2 ^ 8)%N) by (apply N.mod_lt; discriminate).
  assert (Hm : (m < 2 ^ 23)%N) by (apply N.mod_lt; discriminate).
  assert (Hs : (s < 2)%N) by (apply N.div_lt_upper_bound; [discriminate|exact H]).
  assert (G : ((if e =? N.ones 8 then 9218868437227405312 + m * 2 ^ 29 else if e =? 0 then if m =? 0 then 0
     else (N.log2 m + 874) * 2 ^ 52 + (m - 2 ^ N.log2 m) * 2 ^ (52 - N.log2 m) else (e + 896) * 2 ^ 52 + m * 2 ^ 29) < 2 ^ 63)%N).
  { change (2 ^ 8)%N with 256%N in *. change (2 ^ 23)%N with 8388608%N in *. change (2 ^ 29)%N with 536870912%N.
    change (2 ^ 52)%N with 4503599627370496%N. change (2 ^ 63)%N with 9223372036854775808%N.
    destruct (N.eqb_spec e (N.ones 8)) as [E|E]; [lia|]. change (N.ones 8) with 255%N in E.
    destruct (N.eqb_spec e 0) as [E0|E0]; [|lia].
    destruct (N.eqb_spec m 0) as [M0|M0]; [lia|].
    pose proof (N.log2_spec m ltac:(lia)) as [L1 L2].
    assert (L3 : (N.log2 m < 23)%N) by (apply N.log2_lt_pow2; [lia|exact Hm]).
    assert (((m - 2 ^ N.log2 m) * 2 ^ (52 - N.log2 m) < 2 ^ 52)%N).
    { replace (2 ^ 52)%N with (2 ^ N.log2 m * 2 ^ (52 - N.log2 m))%N by (rewrite <- N.pow_add_r; f_equal; lia).
      apply N.mul_lt_mono_pos_r; [apply N.neq_0_lt_0, N.pow_nonzero; discriminate|].
      rewrite N.pow_succ_r' in L2. lia. }
    change (2 ^ 52)%N with 4503599627370496%N in *. lia. }
  match type of G with (?g < _)%N => set (w := g) in * end.
  change (2 ^ 63)%N with 9223372036854775808%N in *. change (2 ^ 64)%N with 18446744073709551616%N. lia.
Qed.

(** The hash a typed update presents is the hash of its key. *)
Lemma input_hash_key seed x : ok_input x -> (seed < 2 ^ 64)%N ->
  input_hash seed x = Some (match key_of x with None => None | Some k => Some (key_hash seed k) end).
Proof.
  intros Hx Hs. destruct x; cbn [ok_input] in Hx; cbn [input_hash key_of].
  - rewrite hash_int64_key, int64_bytes_N by auto. reflexivity.
  - rewrite hash_int64_key by auto. reflexivity.
  - rewrite hash_int64_key by auto. rewrite int64_bytes_N'; [reflexivity|]. eapply N.lt_trans; [exact Hx|reflexivity].
  - apply hash_int32_key; auto.
  - rewrite hash_int32_key; auto.
    2:{ unfold is_int32. change (2 ^ 16)%N with 65536%N in Hx. lia. }
    unfold int32_key. destruct (Z.leb_spec 0 (Z.of_N v)); [|lia]. rewrite N2Z.id. reflexivity.
  - apply hash_int32_key; auto. unfold is_int32. lia.
  - rewrite hash_int32_key; auto.
    2:{ unfold is_int32. change (2 ^ 8)%N with 256%N in Hx. lia. }
    unfold int32_key. destruct (Z.leb_spec 0 (Z.of_N v)); [|lia]. rewrite N2Z.id. reflexivity.
  - apply hash_int32_key; auto. unfold is_int32. lia.
  - rewrite hash_int64_key, canonical_double_bits by auto. reflexivity.
  - rewrite hash_int64_key, canonical_double_bits by (auto using widen32_lt). reflexivity.
  - destruct s as [|a s]; [reflexivity|]. unfold hash_string. rewrite murmur3_string_reference by auto.
    rewrite half_ref. reflexivity.
  - unfold hash_bytes. rewrite murmur3_bytes_reference by auto. rewrite half_ref. reflexivity.
Qed.

(** ** C72: theta and tuple sketches *)

(** A typed update of a theta sketch is the update with the hash of its key. *)
Theorem theta_typed_update seed t x : ok_input x -> (seed < 2 ^ 64)%N ->
  theta_update_input seed t x = ustep t (op_of seed x).
Proof.
  intros Hx Hs. unfold theta_update_input. rewrite input_hash_key by auto. cbn [bindo]. unfold op_of.
  destruct (key_of x); reflexivity.
Qed.

(** Values with the same key have the same effect and the same returned error, in every state. *)
Theorem theta_same_key seed t x y : ok_input x -> ok_input y -> (seed < 2 ^ 64)%N -> key_of x = key_of y ->
  theta_update_input seed t x = theta_update_input seed t y.
Proof. intros Hx Hy Hs E. rewrite !theta_typed_update by auto. unfold op_of. rewrite E. reflexivity. Qed.

Fixpoint theta_run_inputs (seed : N) (t : ttable) (xs : list input) : option ttable :=
  match xs with
  | [] => Some t
  | x :: r => match theta_update_input seed t x with None => None | Some (t', _) => theta_run_inputs seed t' r end
  end.

Lemma theta_run_ops seed xs : (seed < 2 ^ 64)%N -> Forall ok_input xs -> forall t, theta_run_inputs seed t xs = urun t (map (op_of seed) xs).
Proof.
  intros Hs. induction 1 as [|x xs Hx Hxs IH]; intros t; [reflexivity|]. cbn [theta_run_inputs map urun].
  rewrite theta_typed_update by auto. destruct (ustep t (op_of seed x)) as [[t' e]|]; auto.
Qed.

Lemma seen_ops seed xs h : In h (seen (map (op_of seed) xs)) <-> exists x k, In x xs /\ key_of x = Some k /\ key_hash seed k = h.
Proof.
  unfold seen. rewrite <- (app_nil_l (fold_left _ _ _)).
  assert (G : forall xs acc, In h (fold_left seen_step (map (op_of seed) xs) acc) <->
    In h acc \/ exists x k, In x xs /\ key_of x = Some k /\ key_hash seed k = h).
  { induction xs0 as [|x xs0 IH]; intros acc; cbn [map fold_left].
    - split; [auto|]. intros [H|(x & k & [] & _)]; auto.
    - rewrite IH. unfold op_of at 1. destruct (key_of x) as [k|] eqn:E; cbn [seen_step].
      + rewrite in_app_iff. cbn [In]. split.
        * intros [[H|[<-|[]]]|(y & k' & H1 & H2 & H3)]; auto.
          -- right. exists x, k. auto.
          -- right. exists y, k'. auto.
        * intros [H|(y & k' & [<-|H1] & H2 & H3)]; auto.
          -- left. right. left. congruence.
          -- right. exists y, k'. auto.
      + split.
        * intros [H|(y & k' & H1 & H2 & H3)]; auto. right. exists y, k'. cbn [In]. auto.
        * intros [H|(y & k' & [<-|H1] & H2 & H3)]; auto; [congruence|]. right. exists y, k'. auto. }
  cbn [app]. rewrite G. cbn [In]. tauto.
Qed.

(** After any typed updates the sketch holds exactly the hashes of the keys presented, below theta. *)
Theorem theta_typed_content lgK rf th0 seed xs : good_params lgK rf th0 -> (seed < 2 ^ 64)%N -> Forall ok_input xs ->
  exists t, theta_run_inputs seed (new_update_sketch lgK rf th0) xs = Some t /\
    NoDup (all_of t) /\ t_num t = length (all_of t) /\
    (forall h, In h (all_of t) <->
       (exists x k, In x xs /\ key_of x = Some k /\ key_hash seed k = h) /\ (0 < h)%N /\ (h < theta_of t)%N).
Proof.
  intros G Hs Hx. rewrite theta_run_ops by auto.
  destruct (theta_content lgK rf th0 (map (op_of seed) xs) G) as (t & E & ND & M & Nn & _).
  exists t. do 3 (split; auto). intros h. rewrite M, seen_ops. reflexivity.
Qed.

(** The same for tuple sketches, whatever the summaries. *)
Theorem tuple_same_key {S V} (s0 : S) (upf : S -> V -> S) mk seed t x y v : ok_input x -> ok_input y -> (seed < 2 ^ 64)%N ->
  key_of x = key_of y -> tuple_update_input s0 upf mk seed t x v = tuple_update_input s0 upf mk seed t y v.
Proof.
  intros Hx Hy Hs E. unfold tuple_update_input. rewrite !input_hash_key by auto. rewrite E. reflexivity.
Qed.

Theorem tuple_typed_update {S V} (s0 : S) (upf : S -> V -> S) mk seed t x v : ok_input x -> (seed < 2 ^ 64)%N ->
  tuple_update_input s0 upf mk seed t x v =
  match key_of x with
  | None => tup_step s0 upf mk t (TEmptyString v)
  | Some k => tup_step s0 upf mk t (TUpdate (key_hash seed k) v)
  end.
Proof.
  intros Hx Hs. unfold tuple_update_input. rewrite input_hash_key by auto. destruct (key_of x); reflexivity.
Qed.

(** *** Which values share a key *)

Lemma kbytes_inj a b : Some (KBytes a) = Some (KBytes b) -> a = b.
Proof. intros H. apply (f_equal (fun o => match o with Some (KBytes x) => x | _ => [] end)) in H. exact H. Qed.

(** 64-bit integers: by value, and like their eight bytes. *)
Theorem integer_keys_64 v : is_int64 v ->
  key_of (XInt64 v) = Some (KBytes (int64_bytes v)) /\
  key_of (XBytes (int64_bytes v)) = key_of (XInt64 v) /\
  key_of (XUint64 (Z.to_N (v mod 2 ^ 64))) = key_of (XInt64 v) /\
  ((0 <= v < 2 ^ 32)%Z -> key_of (XUint32 (Z.to_N v)) = key_of (XInt64 v)) /\
  (forall w, is_int64 w -> key_of (XInt64 w) = key_of (XInt64 v) -> w = v).
Proof.
  intros Hv. repeat split.
  - intros H. cbn [key_of]. unfold int64_bytes. rewrite Z.mod_small by lia. reflexivity.
  - intros w Hw E. apply kbytes_inj in E. apply int64_bytes_inj; auto.
Qed.

(** Integers of 8, 16 and 32 bits: by value. *)
Theorem integer_keys_32 v : is_int32 v ->
  ((- 2 ^ 15 <= v < 2 ^ 15)%Z -> key_of (XInt16 v) = key_of (XInt32 v)) /\
  ((- 2 ^ 7 <= v < 2 ^ 7)%Z -> key_of (XInt8 v) = key_of (XInt32 v)) /\
  ((0 <= v < 2 ^ 16)%Z -> key_of (XUint16 (Z.to_N v)) = key_of (XInt32 v)) /\
  ((0 <= v < 2 ^ 8)%Z -> key_of (XUint8 (Z.to_N v)) = key_of (XInt32 v)) /\
  (forall w, is_int32 w -> key_of (XInt32 w) = key_of (XInt32 v) -> w = v).
Proof.
  intros Hv. unfold is_int32 in Hv. repeat split; try reflexivity.
  1,2: intros H; cbn [key_of]; unfold int32_key; destruct (Z.leb_spec 0 v); [reflexivity|lia].
  intros w Hw E. unfold is_int32 in Hw. cbn [key_of] in E. unfold int32_key in E.
  destruct (Z.leb_spec 0 v), (Z.leb_spec 0 w); try discriminate; [|congruence].
  apply kbytes_inj in E. apply (f_equal unle) in E. rewrite !unle_le_small in E.
  - apply Z2N.inj; auto.
  - change (256 ^ N.of_nat 4)%N with (Z.to_N (2 ^ 32)). apply Z2N.inj_lt; lia.
  - change (256 ^ N.of_nat 4)%N with (Z.to_N (2 ^ 32)). apply Z2N.inj_lt; lia.
Qed.

(** *** Floats: the key is the value *)

(** The magnitude in units, as a function of the bits without the sign. *)
Definition mag_units (fb : N) (x : N) : N :=
  (if x / 2 ^ fb =? 0 then x mod 2 ^ fb else (2 ^ fb + x mod 2 ^ fb) * 2 ^ (x / 2 ^ fb - 1))%N.

Lemma mag_units_mono fb x y : (x < y)%N -> (mag_units fb x < mag_units fb y)%N.
Proof.
  intros H. unfold mag_units. set (P := (2 ^ fb)%N). assert (HP : P <> 0%N) by (apply N.pow_nonzero; discriminate).
  pose proof (N.div_mod x P HP) as Ex. pose proof (N.div_mod y P HP) as Ey.
  pose proof (N.mod_lt x P HP) as Mx. pose proof (N.mod_lt y P HP) as My.
  set (a := (x / P)%N) in *. set (b := (y / P)%N) in *. set (m := (x mod P)%N) in *. set (n := (y mod P)%N) in *.
  assert (C : a = b /\ (m < n)%N \/ (a < b)%N) by nia.
  destruct C as [[-> L]|L].
  - destruct (N.eqb_spec b 0); [exact L|]. apply N.mul_lt_mono_pos_r; [apply N.neq_0_lt_0, N.pow_nonzero; discriminate|lia].
  - assert (B0 : (b =? 0)%N = false) by (apply N.eqb_neq; lia). rewrite B0.
    assert (Pb : (1 <= 2 ^ (b - 1))%N) by (apply N.lt_pred_le; apply N.neq_0_lt_0, N.pow_nonzero; discriminate).
    destruct (N.eqb_spec a 0) as [A0|A0].
    + apply N.lt_le_trans with (P * 1)%N; [lia|]. apply N.mul_le_mono; lia.
    + apply N.lt_le_trans with (2 * P * 2 ^ (a - 1))%N.
      * apply N.mul_lt_mono_pos_r; [apply N.neq_0_lt_0, N.pow_nonzero; discriminate|lia].
      * replace (2 * P * 2 ^ (a - 1))%N with (P * 2 ^ a)%N.
        2:{ replace a with (N.succ (a - 1)) at 1 by lia. rewrite N.pow_succ_r'. lia. }
        apply N.mul_le_mono; [lia|]. apply N.pow_le_mono_r; lia.
Qed.

Lemma mag_units_inj fb x y : mag_units fb x = mag_units fb y -> x = y.
Proof.
  intros H. destruct (N.lt_trichotomy x y) as [L|[E|L]]; auto; apply (mag_units_mono fb) in L; lia.
Qed.
Lemma mag_units_0 fb : mag_units fb 0 = 0%N.
Proof. unfold mag_units. assert (2 ^ fb <> 0)%N by (apply N.pow_nonzero; discriminate). rewrite N.div_0_l, N.mod_0_l by auto. reflexivity. Qed.

(** A float64 by sign and magnitude. *)
Lemma f64_split b : (b < 2 ^ 64)%N ->
  f64_value b = (if (0x7ff0000000000000 <? b mod 2 ^ 63)%N then VNaN
                 else if (b mod 2 ^ 63 =? 0x7ff0000000000000)%N then VInf (b / 2 ^ 63 =? 1)%N
                 else VFinite (signed (b / 2 ^ 63 =? 1)%N (mag_units 52 (b mod 2 ^ 63)))) /\ (b / 2 ^ 63 < 2)%N.
Proof.
  intros H. split; [|apply N.div_lt_upper_bound; [discriminate|exact H]].
  unfold f64_value, decode_float. change (11 + 52)%N with 63%N. change (2 ^ 11 - 1)%N with 2047%N.
  set (s := (b / 2 ^ 63 =? 1)%N).
  assert (E1 : (b / 2 ^ 52 mod 2 ^ 11 = b mod 2 ^ 63 / 2 ^ 52)%N).
  { change (2 ^ 63)%N with (2 ^ 52 * 2 ^ 11)%N. rewrite N.mod_mul_r by discriminate.
    rewrite (N.mul_comm (2 ^ 52) ((b / 2 ^ 52) mod 2 ^ 11)), N.div_add by discriminate.
    rewrite (N.div_small (b mod 2 ^ 52)) by (apply N.mod_lt; discriminate). reflexivity. }
  assert (E2 : (b mod 2 ^ 52 = (b mod 2 ^ 63) mod 2 ^ 52)%N).
  { change (2 ^ 63)%N with (2 ^ 52 * 2 ^ 11)%N. rewrite N.mod_mul_r by discriminate.
    rewrite (N.mul_comm (2 ^ 52) ((b / 2 ^ 52) mod 2 ^ 11)), N.mod_add by discriminate.
    rewrite N.mod_mod by discriminate. reflexivity. }
  rewrite E1, E2. set (x := (b mod 2 ^ 63)%N).
  assert (Hx : (x < 2 ^ 63)%N) by (apply N.mod_lt; discriminate).
  pose proof (N.div_mod x (2 ^ 52) ltac:(discriminate)) as DM. pose proof (N.mod_lt x (2 ^ 52) ltac:(discriminate)) as MB.
  unfold mag_units. set (e := (x / 2 ^ 52)%N) in *. set (m := (x mod 2 ^ 52)%N) in *.
  change (2 ^ 52)%N with 4503599627370496%N in *. change (2 ^ 63)%N with 9223372036854775808%N in *.
  destruct (N.eqb_spec e 2047) as [Ee|Ee].
  - destruct (N.eqb_spec m 0) as [Em|Em].
    + assert (G1 : (9218868437227405312 <? x)%N = false) by (apply N.ltb_ge; lia). rewrite G1.
      assert (G2 : (x =? 9218868437227405312)%N = true) by (apply N.eqb_eq; lia). rewrite G2. reflexivity.
    + assert (G1 : (9218868437227405312 <? x)%N = true) by (apply N.ltb_lt; lia). rewrite G1. reflexivity.
  - assert (G1 : (9218868437227405312 <? x)%N = false) by (apply N.ltb_ge; lia). rewrite G1.
    assert (G2 : (x =? 9218868437227405312)%N = false) by (apply N.eqb_neq; lia). rewrite G2.
    rewrite N.pow_0_r, N.mul_1_r. reflexivity.
Qed.

Lemma signed_inj s s' x y : signed s x = signed s' y -> x = y /\ (s = s' \/ x = 0%N).
Proof. unfold signed. destruct s, s'; intros H; split; auto; lia. Qed.

Lemma bits_ext a b : (a / 2 ^ 63 = b / 2 ^ 63)%N -> (a mod 2 ^ 63 = b mod 2 ^ 63)%N -> a = b.
Proof. intros H1 H2. rewrite (N.div_mod a (2 ^ 63)), (N.div_mod b (2 ^ 63)), H1, H2 by discriminate. reflexivity. Qed.

Lemma canonical_value a b : (a < 2 ^ 64)%N -> (b < 2 ^ 64)%N -> (canonical_bits a = canonical_bits b <-> f64_value a = f64_value b).
Proof.
  intros Ha Hb. destruct (f64_split a Ha) as [-> Sa]. destruct (f64_split b Hb) as [-> Sb].
  unfold canonical_bits.
  assert (S2 : forall s : N, (s < 2)%N -> s = 0%N \/ s = 1%N) by (intros; lia).
  assert (Cn : forall z, (z / 2 ^ 63 < 2)%N -> (z mod 2 ^ 63 <= 0x7ff0000000000000)%N -> z <> 0x7ff8000000000000%N).
  { intros z _ Hz ->. vm_compute in Hz. apply Hz. reflexivity. }
  assert (Cz : forall z, (z mod 2 ^ 63 <> 0)%N -> z <> 0%N) by (intros z Hz ->; apply Hz; reflexivity).
  set (K := 0x7ff0000000000000%N) in *.
  destruct (N.ltb_spec K (a mod 2 ^ 63)) as [Na|Na]; destruct (N.ltb_spec K (b mod 2 ^ 63)) as [Nb|Nb].
  - assert (Za : (a mod 2 ^ 63 =? 0)%N = false) by (apply N.eqb_neq; unfold K in Na; lia).
    assert (Zb : (b mod 2 ^ 63 =? 0)%N = false) by (apply N.eqb_neq; unfold K in Nb; lia).
    rewrite Za, Zb. tauto.
  - assert (Za : (a mod 2 ^ 63 =? 0)%N = false) by (apply N.eqb_neq; unfold K in Na; lia). rewrite Za. split.
    + destruct (b mod 2 ^ 63 =? 0)%N; [discriminate|]. intros E. exfalso. apply (Cn b); auto.
    + destruct (b mod 2 ^ 63 =? K)%N; discriminate.
  - assert (Zb : (b mod 2 ^ 63 =? 0)%N = false) by (apply N.eqb_neq; unfold K in Nb; lia). rewrite Zb. split.
    + destruct (a mod 2 ^ 63 =? 0)%N; [discriminate|]. intros E. exfalso. apply (Cn a); auto.
    + destruct (a mod 2 ^ 63 =? K)%N; discriminate.
  - destruct (N.eqb_spec (a mod 2 ^ 63) 0) as [Za|Za]; destruct (N.eqb_spec (b mod 2 ^ 63) 0) as [Zb|Zb].
    + rewrite Za, Zb. change (0 =? K)%N with false. cbv iota. rewrite mag_units_0. unfold signed.
      split; [|reflexivity]. intros _. destruct (a / 2 ^ 63 =? 1)%N, (b / 2 ^ 63 =? 1)%N; reflexivity.
    + split; [intros E; exfalso; apply (Cz b); auto|].
      rewrite Za. change (0 =? K)%N with false. cbv iota. destruct (b mod 2 ^ 63 =? K)%N; [discriminate|].
      intros E. injection E as E. apply signed_inj in E. destruct E as [E _]. apply mag_units_inj in E. exfalso. apply Zb. symmetry. exact E.
    + split; [intros E; exfalso; apply (Cz a); auto|].
      rewrite Zb. change (0 =? K)%N with false. cbv iota. destruct (a mod 2 ^ 63 =? K)%N; [discriminate|].
      intros E. injection E as E. apply signed_inj in E. destruct E as [E _]. apply mag_units_inj in E. exfalso. apply Za. exact E.
    + split; [intros ->; reflexivity|]. intros E. apply bits_ext.
      * assert (SE : (a / 2 ^ 63 =? 1)%N = (b / 2 ^ 63 =? 1)%N).
        { destruct (a mod 2 ^ 63 =? K)%N, (b mod 2 ^ 63 =? K)%N; try discriminate; injection E as E; auto.
          apply signed_inj in E. destruct E as [_ [E|E]]; auto. exfalso. apply Za.
          rewrite <- (mag_units_0 52) in E. apply mag_units_inj in E. exact E. }
        destruct (S2 _ Sa) as [E1|E1]; destruct (S2 _ Sb) as [E2|E2]; rewrite E1, E2 in *; auto; discriminate SE.
      * destruct (N.eqb_spec (a mod 2 ^ 63) K) as [Ka|Ka]; destruct (N.eqb_spec (b mod 2 ^ 63) K) as [Kb|Kb]; try discriminate; [congruence|].
        injection E as E. apply signed_inj in E. destruct E as [E _]. apply mag_units_inj in E. exact E.
Qed.

Lemma le8_inj a b : (a < 2 ^ 64)%N -> (b < 2 ^ 64)%N -> le 8 a = le 8 b -> a = b.
Proof.
  intros Ha Hb H. apply (f_equal unle) in H. rewrite !unle_le_small in H; auto.
Qed.

(** Two float64 are the same key exactly when they have the same value: -0.0 is 0.0 and all NaNs are one. *)
Theorem float64_keys a b : (a < 2 ^ 64)%N -> (b < 2 ^ 64)%N ->
  (key_of (XFloat64 a) = key_of (XFloat64 b) <-> f64_value a = f64_value b).
Proof.
  intros Ha Hb. rewrite <- canonical_value by auto. cbn [key_of]. split; [|intros ->; reflexivity].
  intros E. apply kbytes_inj in E. apply le8_inj in E; auto using canonical_lt.
Qed.

(** The conversion of a float32 keeps its value. *)
Theorem widen32_value b : (b < 2 ^ 32)%N -> f64_value (widen32 b) = f32_value b.
Proof.
  intros H. destruct (f64_split (widen32 b) (widen32_lt b H)) as [-> _].
  unfold f32_value, decode_float, widen32. change (8 + 23)%N with 31%N. change (2 ^ 8 - 1)%N with 255%N.
  rewrite !N.shiftl_mul_pow2, !N.shiftr_div_pow2.
  change (2 ^ 23 - 1)%N with (N.ones 23). replace (N.land (b / 2 ^ 23) 255) with (b / 2 ^ 23 mod 2 ^ 8)%N by (symmetry; apply (N.land_ones _ 8)).
  rewrite !N.land_ones.
  set (e := (b / 2 ^ 23 mod 2 ^ 8)%N). set (m := (b mod 2 ^ 23)%N). set (s := (b / 2 ^ 31)%N).
  assert (He : (e < 2 ^ 8)%N) by (apply N.mod_lt; discriminate).
  assert (Hm : (m < 2 ^ 23)%N) by (apply N.mod_lt; discriminate).
  assert (Hs : (s < 2)%N) by (apply N.div_lt_upper_bound; [discriminate|exact H]).
  match goal with |- context [(s * 2 ^ 63 + ?g)%N] => set (w := g) end.
  assert (Hw : (w < 2 ^ 63)%N /\
    (if (0x7ff0000000000000 <? w)%N then VNaN else if (w =? 0x7ff0000000000000)%N then VInf (s =? 1)%N else VFinite (signed (s =? 1)%N (mag_units 52 w))) =
    (if (e =? 255)%N then if (m =? 0)%N then VInf (s =? 1)%N else VNaN else
      VFinite (signed (s =? 1)%N ((if (e =? 0)%N then m else (2 ^ 23 + m) * 2 ^ (e - 1)) * 2 ^ 925)))).
  { assert (F : forall x y, (y < 2 ^ 52)%N -> (x < 2047)%N -> (x <> 0)%N ->
      (x * 2 ^ 52 + y < 0x7ff0000000000000)%N /\ mag_units 52 (x * 2 ^ 52 + y) = ((2 ^ 52 + y) * 2 ^ (x - 1))%N).
    { intros x y Hy Hx X0. split.
      - change (2 ^ 52)%N with 4503599627370496%N in *. lia.
      - unfold mag_units. rewrite N.div_add_l, (N.div_small y), N.add_0_r by (auto; discriminate).
        rewrite (N.add_comm (x * 2 ^ 52) y), N.mod_add, (N.mod_small y) by (auto; discriminate).
        destruct (N.eqb_spec x 0); [congruence|reflexivity]. }
    assert (K63 : (0x7ff0000000000000 < 2 ^ 63)%N) by reflexivity.
    assert (GF : forall x y z, (y < 2 ^ 52)%N -> (x < 2047)%N -> (x <> 0)%N -> ((2 ^ 52 + y) * 2 ^ (x - 1))%N = z ->
      (x * 2 ^ 52 + y < 2 ^ 63)%N /\
      (if (0x7ff0000000000000 <? x * 2 ^ 52 + y)%N then VNaN else if (x * 2 ^ 52 + y =? 0x7ff0000000000000)%N then VInf (s =? 1)%N
       else VFinite (signed (s =? 1)%N (mag_units 52 (x * 2 ^ 52 + y)))) = VFinite (signed (s =? 1)%N z)).
    { intros x y z Hy Hx X0 Hz. destruct (F x y Hy Hx X0) as [F1 F2]. split; [lia|].
      destruct (N.ltb_spec 0x7ff0000000000000 (x * 2 ^ 52 + y)) as [B|B]; [lia|].
      destruct (N.eqb_spec (x * 2 ^ 52 + y) 0x7ff0000000000000) as [B2|B2]; [lia|]. rewrite F2, Hz. reflexivity. }
    subst w. destruct (N.eqb_spec e 255) as [E|E].
    - change (2 ^ 23)%N with 8388608%N in Hm. change (2 ^ 29)%N with 536870912%N. change (2 ^ 63)%N with 9223372036854775808%N.
      split; [lia|]. destruct (N.eqb_spec m 0) as [M|M].
      + rewrite M. reflexivity.
      + destruct (N.ltb_spec 9218868437227405312 (9218868437227405312 + m * 536870912)); [reflexivity|lia].
    - destruct (N.eqb_spec e 0) as [E0|E0].
      + destruct (N.eqb_spec m 0) as [M|M].
        * rewrite M, N.mul_0_l. change (0x7ff0000000000000 <? 0)%N with false. change (0 =? 0x7ff0000000000000)%N with false.
          cbv iota. rewrite mag_units_0. split; [reflexivity|]. reflexivity.
        * pose proof (N.log2_spec m ltac:(lia)) as [L1 L2].
          assert (L3 : (N.log2 m < 23)%N) by (apply N.log2_lt_pow2; [lia|exact Hm]).
          assert (EP : (2 ^ 52 = 2 ^ N.log2 m * 2 ^ (52 - N.log2 m))%N) by (rewrite <- N.pow_add_r; f_equal; lia).
          apply GF; try lia.
          -- rewrite EP. apply N.mul_lt_mono_pos_r; [apply N.neq_0_lt_0, N.pow_nonzero; discriminate|].
             rewrite N.pow_succ_r' in L2. lia.
          -- rewrite EP at 1. rewrite <- N.mul_add_distr_r.
             replace (2 ^ N.log2 m + (m - 2 ^ N.log2 m))%N with m by lia.
             rewrite <- N.mul_assoc, <- N.pow_add_r. f_equal. f_equal. lia.
      + apply GF; try lia.
        change (2 ^ 52)%N with (2 ^ 23 * 2 ^ 29)%N. rewrite <- N.mul_add_distr_r, <- !N.mul_assoc, <- !N.pow_add_r.
          f_equal. f_equal. lia. }
  destruct Hw as [Hw1 Hw2].
  rewrite N.div_add_l, (N.div_small w), N.add_0_r by (auto; discriminate).
  rewrite (N.add_comm (s * 2 ^ 63) w), N.mod_add, (N.mod_small w) by (auto; discriminate). exact Hw2.
Qed.

(** A float32 is the same key as the float64 of the same value. *)
Theorem float32_keys a b : (a < 2 ^ 32)%N -> (b < 2 ^ 64)%N ->
  (key_of (XFloat32 a) = key_of (XFloat64 b) <-> f32_value a = f64_value b).
Proof.
  intros Ha Hb. rewrite <- widen32_value by auto. rewrite <- float64_keys by (auto using widen32_lt). reflexivity.
Qed.

(** Different widths of the same number are different keys, and so are a string and the same bytes, so that a sketch
    counts them twice. *)
Theorem width_is_part_of_the_key v w : is_int64 v -> is_int32 w -> key_of (XInt64 v) <> key_of (XInt32 w).
Proof.
  intros _ _ E. cbn [key_of] in E. unfold int32_key in E. destruct (0 <=? w)%Z; [|discriminate].
  apply kbytes_inj in E. apply (f_equal (@length N)) in E. unfold int64_bytes in E. rewrite !le_length in E. discriminate.
Qed.

Definition retained_after (xs : list input) : option nat :=
  do t <- theta_run_inputs 9001 (new_update_sketch 12 3 MaxTheta) xs; Some (t_num t).

Theorem same_number_once_refuted :
  ~ (forall v, (0 <= v < 2 ^ 31)%Z -> retained_after [XInt64 v; XInt32 v] = Some 1).
Proof. intros H. specialize (H 5%Z ltac:(lia)). vm_compute in H. discriminate. Qed.
Theorem unsigned_number_once_refuted :
  ~ (forall v, (v < 2 ^ 31)%N -> retained_after [XUint32 v; XInt32 (Z.of_N v)] = Some 1).
Proof. intros H. specialize (H 5%N ltac:(reflexivity)). vm_compute in H. discriminate. Qed.
Theorem same_text_once_refuted :
  ~ (forall s, is_bytes s -> s <> [] -> retained_after [XString s; XBytes s] = Some 1).
Proof.
  intros H. specialize (H [97; 98; 99]%N ltac:(repeat constructor) ltac:(discriminate)). vm_compute in H. discriminate.
Qed.

(** *** CPC and HLL *)

(** What a typed value is for a CPC sketch: a byte string; None: ignored.  (Int32 slices apart.) *)
Definition cpc_key (x : cpc_input) : option (list N) :=
  match x with
  | CUint64 v => Some (le 8 v)
  | CInt64 v => Some (int64_bytes v)
  | CFloat64 b => Some (le 8 (canonical_bits b))
  | CInt64Slice l => if (length l =? 0)%nat then None else Some (flat_map int64_bytes l)
  | CInt32Slice l => None
  | CByteSlice b | CString b => if (length b =? 0)%nat then None else Some b
  end.

Definition ok_cpc (x : cpc_input) : Prop :=
  match x with
  | CUint64 v | CFloat64 v => (v < 2 ^ 64)%N
  | CInt64 v => is_int64 v
  | CInt64Slice l => Forall is_int64 l
  | CInt32Slice l => l = []
  | CByteSlice b | CString b => is_bytes b
  end.

Lemma cpc_float_canonical b : (b < 2 ^ 64)%N -> cpc_float_bits b = canonical_bits b.
Proof.
  intros H. unfold cpc_float_bits, canonical_bits, f64_is_zero. rewrite land_mod63.
  destruct (N.eqb_spec (b mod 2 ^ 63) 0) as [Z|Z]; [reflexivity|]. cbv zeta.
  assert (E1 : N.land b 0x7ff0000000000000 = ((b mod 2 ^ 63 / 2 ^ 52) * 2 ^ 52)%N).
  { change 0x7ff0000000000000%N with (N.shiftl (N.ones 11) 52). rewrite <- (N.shiftl_mul_pow2 _ 52), <- (N.shiftr_div_pow2 _ 52), <- N.land_ones.
    apply N.bits_inj. intros i. rewrite N.land_spec. destruct (N.lt_ge_cases i 52) as [L|G].
    - rewrite !N.shiftl_spec_low by auto. apply Bool.andb_false_r.
    - rewrite !N.shiftl_spec_high' by auto. rewrite N.shiftr_spec', N.land_spec.
      replace (i - 52 + 52)%N with i by lia. f_equal.
      destruct (N.lt_ge_cases i 63) as [L|G2].
      + rewrite !N.ones_spec_low by lia. reflexivity.
      + rewrite !N.ones_spec_high by lia. reflexivity. }
  assert (E2 : N.land b 0x000fffffffffffff = ((b mod 2 ^ 63) mod 2 ^ 52)%N).
  { change 0x000fffffffffffff%N with (N.ones 52). rewrite N.land_ones.
    change (2 ^ 63)%N with (2 ^ 52 * 2 ^ 11)%N. rewrite N.mod_mul_r by discriminate.
    rewrite (N.mul_comm (2 ^ 52) ((b / 2 ^ 52) mod 2 ^ 11)), N.mod_add by discriminate.
    rewrite N.mod_mod by discriminate. reflexivity. }
  rewrite E1, E2. set (x := (b mod 2 ^ 63)%N) in *.
  assert (Hx : (x < 2 ^ 63)%N) by (apply N.mod_lt; discriminate).
  pose proof (N.div_mod x (2 ^ 52) ltac:(discriminate)) as DM. pose proof (N.mod_lt x (2 ^ 52) ltac:(discriminate)) as MB.
  set (e := (x / 2 ^ 52)%N) in *. set (m := (x mod 2 ^ 52)%N) in *.
  change (2 ^ 52)%N with 4503599627370496%N in *. change (2 ^ 63)%N with 9223372036854775808%N in *.
  destruct (N.ltb_spec 9218868437227405312 x) as [L|G].
  - assert (G1 : (e * 4503599627370496 =? 9218868437227405312)%N = true) by (apply N.eqb_eq; lia). rewrite G1.
    assert (G2 : (m =? 0)%N = false) by (apply N.eqb_neq; lia). rewrite G2. reflexivity.
  - destruct (N.eqb_spec (e * 4503599627370496) 9218868437227405312) as [A|A]; [|reflexivity].
    assert (G2 : (m =? 0)%N = true) by (apply N.eqb_eq; lia). rewrite G2. reflexivity.
Qed.

(** Every typed update of a CPC sketch, int32 slices apart, is the update with the published hash of its bytes. *)
Theorem cpc_typed_update {F} (HO : hip_ops F) s x : ok_cpc x -> (c_seed s < 2 ^ 64)%N ->
  cpc_update_input HO s x =
  match cpc_key x with
  | None => Ok s
  | Some b => hash_update F HO s (fst (murmur3_x64_128 b (c_seed s))) (snd (murmur3_x64_128 b (c_seed s)))
  end.
Proof.
  intros Hx Hs. unfold cpc_update_input, seed_sum128.
  assert (P : forall b : list N, (let (h0, h1) := murmur3_x64_128 b (c_seed s) in hash_update F HO s h0 h1) =
     hash_update F HO s (fst (murmur3_x64_128 b (c_seed s))) (snd (murmur3_x64_128 b (c_seed s)))).
  { intros b. destruct (murmur3_x64_128 b (c_seed s)). reflexivity. }
  destruct x as [v|v|b|l|l|b|b]; cbn [ok_cpc] in Hx; cbn [cpc_key cpc_hash]; unfold seed_sum128.
  - apply P.
  - change (Murmur3Model.to_u64 v) with (Z.to_N (v mod 2 ^ 64)). apply P.
  - rewrite cpc_float_canonical by auto. apply P.
  - destruct l as [|a l]; [reflexivity|]. rewrite murmur3_int64_reference by auto. cbn [bindo length Nat.eqb]. apply P.
  - rewrite Hx. reflexivity.
  - destruct b as [|a b]; [reflexivity|]. cbn [length Nat.eqb]. apply P.
  - destruct b as [|a b]; [reflexivity|]. cbn [length Nat.eqb]. apply P.
Qed.

Theorem cpc_same_key {F} (HO : hip_ops F) s x y : ok_cpc x -> ok_cpc y -> (c_seed s < 2 ^ 64)%N -> cpc_key x = cpc_key y ->
  cpc_update_input HO s x = cpc_update_input HO s y.
Proof. intros Hx Hy Hs E. rewrite !cpc_typed_update by auto. rewrite E. reflexivity. Qed.

(** Floats are one key per value, as in theta sketches. *)
Theorem cpc_float_keys a b : (a < 2 ^ 64)%N -> (b < 2 ^ 64)%N ->
  (cpc_key (CFloat64 a) = cpc_key (CFloat64 b) <-> f64_value a = f64_value b).
Proof.
  intros Ha Hb. rewrite <- canonical_value by auto. cbn [cpc_key]. split; [|intros ->; reflexivity].
  intros E. apply le8_inj; auto using canonical_lt.
  exact (f_equal (fun o => match o with Some x => x | None => [] end) E).
Qed.

(** A slice of int32 counts by the elements at even positions only: the others are never hashed. *)
Theorem cpc_int32_slice_even {F} (HO : hip_ops F) s a b : length a = length b ->
  (forall i, nth_error a (2 * i) = nth_error b (2 * i)) ->
  cpc_update_input HO s (CInt32Slice a) = cpc_update_input HO s (CInt32Slice b).
Proof.
  intros L H. unfold cpc_update_input. cbn [cpc_hash].
  destruct a as [|x a]; destruct b as [|y b]; try discriminate; [reflexivity|].
  rewrite (murmur3_int32_even_positions (x :: a) (y :: b)) by auto. reflexivity.
Qed.

Theorem cpc_int32_slices_apart_refuted :
  ~ (forall a b, Forall is_int32 a -> Forall is_int32 b -> a <> b -> cpc_hash 9001 (CInt32Slice a) <> cpc_hash 9001 (CInt32Slice b)).
Proof.
  intros H. apply (H [1; 2]%Z [1; 3]%Z); try reflexivity; try discriminate; repeat constructor; try discriminate; try reflexivity.
Qed.

(** HLL: a typed value is its bytes. *)
Definition hll_key (x : hll_input) : option (list N) :=
  match x with
  | HUint64 v => Some (le 8 v)
  | HInt64 v => Some (int64_bytes v)
  | HSlice b | HString b => if (length b =? 0)%nat then None else Some b
  end.

Theorem hll_typed_coupon x :
  hll_coupon x = option_map (fun b => coupon (fst (murmur3_x64_128 b 9001)) (snd (murmur3_x64_128 b 9001))) (hll_key x).
Proof.
  assert (P : forall b, (let (lo, hi) := hll_hash b in coupon lo hi) = coupon (fst (murmur3_x64_128 b 9001)) (snd (murmur3_x64_128 b 9001))).
  { intros b. unfold hll_hash, seed_sum128. destruct (murmur3_x64_128 b 9001). reflexivity. }
  destruct x as [v|v|b|b]; unfold hll_coupon; cbn [hll_key].
  - rewrite P. reflexivity.
  - rewrite P. reflexivity.
  - destruct b; [reflexivity|]. rewrite P. reflexivity.
  - destruct b; [reflexivity|]. rewrite P. reflexivity.
Qed.

Theorem hll_same_key x y : hll_key x = hll_key y -> hll_coupon x = hll_coupon y.
Proof. intros E. rewrite !hll_typed_coupon, E. reflexivity. Qed.

(** ** Non-vacuity *)

Example keys_typed_mix :
  retained_after [XInt64 5; XUint64 5; XUint32 5; XBytes [5; 0; 0; 0; 0; 0; 0; 0]%N; XInt32 (-7); XInt8 (-7); XInt16 (-7);
                  XFloat64 0; XFloat64 0x8000000000000000; XFloat32 0x80000000; XString []; XString [97]%N] = Some 4.
Proof. vm_compute. reflexivity. Qed.
Example keys_typed_ok : Forall ok_input [XInt64 5; XInt32 (-7); XFloat64 0x7ff0000000000001; XFloat32 1; XString [97]%N; XBytes []].
Proof. repeat constructor; cbn [ok_input]; try discriminate; reflexivity. Qed.
(* 1.0f and 1.0, the smallest float32 and 2^-149 *)
Example keys_float32 : f32_value 0x3f800000 = f64_value 0x3ff0000000000000 /\ f32_value 1 = f64_value 0x36a0000000000000.
Proof. split; vm_compute; reflexivity. Qed.
Example keys_floats : f64_value 0x3ff0000000000000 <> f64_value 0x3ff0000000000001 /\ f64_value 0x7ff0000000000001 = f64_value 0xffffffffffffffff.
Proof. split; vm_compute; [discriminate|reflexivity]. Qed.
Example keys_cpc_ok : ok_cpc (CInt64Slice [1; -1]%Z) /\ cpc_key (CInt64Slice [5]%Z) = cpc_key (CUint64 5) /\ cpc_key (CString [97]%N) = cpc_key (CByteSlice [97]%N).
Proof. split; [|split; reflexivity]. cbn [ok_cpc]. repeat constructor; discriminate. Qed.
Example keys_hll : hll_coupon (HInt64 (-1)) = hll_coupon (HUint64 (2 ^ 64 - 1)) /\ hll_coupon (HString []) = None /\
  hll_coupon (HInt64 1) <> hll_coupon (HInt64 2).
Proof. split; [reflexivity|split; [reflexivity|]]. vm_compute. discriminate. Qed.

Print Assumptions theta_typed_update.
Print Assumptions theta_same_key.
Print Assumptions theta_typed_content.
Print Assumptions tuple_same_key.
Print Assumptions tuple_typed_update.
Print Assumptions integer_keys_64.
Print Assumptions integer_keys_32.
Print Assumptions float64_keys.
Print Assumptions float32_keys.
Print Assumptions widen32_value.
Print Assumptions width_is_part_of_the_key.
Print Assumptions same_number_once_refuted.
Print Assumptions unsigned_number_once_refuted.
Print Assumptions same_text_once_refuted.
Print Assumptions cpc_typed_update.
Print Assumptions cpc_same_key.
Print Assumptions cpc_float_keys.
Print Assumptions cpc_int32_slice_even.
Print Assumptions cpc_int32_slices_apart_refuted.
Print Assumptions hll_typed_coupon.
Print Assumptions hll_same_key.
