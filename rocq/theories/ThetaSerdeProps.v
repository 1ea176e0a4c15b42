(** * Properties C10, C11, C12, C54, C55: theta serialization, bit packing, wrapped sketches. *)
From Coq Require Import ZArith ZifyNat ZifyN Sorting.Sorted Permutation.
From Verif Require Import Base Bytes Arr QuickSelectModel ProbeModel BitPackData BitPackModel BitPackProofs HashtableModel HashtableProofs
  ThetaModel ThetaProofs ThetaProps ThetaSerdeModel ThetaSerdeProofs.
Local Open Scope nat_scope.

(** ** Specification vocabulary *)

(** Bit [p] of a buffer, counting from the most significant bit of byte 0. *)
Definition stream_bit (buf : list N) (p : nat) : bool := N.testbit (nth (p / 8) buf 0%N) (N.of_nat (7 - p mod 8)).
(** The buffer holds, from bit [base], the values [vs], each in [w] bits, most significant bit first. *)
Definition holds_at (buf : list N) (base w : nat) (vs : list N) : Prop :=
  forall i q v, nth_error vs i = Some v -> q < w -> stream_bit buf (base + i * w + q) = N.testbit v (N.of_nat (w - 1 - q)).
Definition is_bytes (buf : list N) : Prop := Forall (fun b => (b < 256)%N) buf.
Definition fits (w : nat) (vs : list N) : Prop := Forall (fun v => (v < 2 ^ N.of_nat w)%N) vs.

(** ** C12: bit packing *)

(** Every width 1..63: packBitsBlock8 of eight w-bit values never fails on w bytes, lays the values out one after
    another, and touches exactly w bytes. *)
Theorem pack_block8_layout : forall w vals buf, 1 <= w <= 63 -> length vals = 8 -> fits w vals -> w <= length buf -> is_bytes buf ->
  exists buf', pack_block8 vals buf (N.of_nat w) = Ok buf' /\ length buf' = length buf /\ is_bytes buf' /\
    holds_at buf' 0 w vals /\ skipn w buf' = skipn w buf.
Proof.
  intros w vals buf Hw Hl Hf Hb Hbb. destruct (pack_block8_spec w vals buf) as (b' & E & L & B & H & A); auto.
  exists b'. split; auto. split; auto. split; auto. split.
  - intros i q v Hv Hq. assert (Hi : i < 8) by (rewrite <- Hl; eapply nth_error_Some_lt; eauto). unfold stream_bit. fold (bitat b' (0 + i * w + q)).
    rewrite Nat.add_0_l, H by nia. rewrite (Nat.add_comm (i * w)), Nat.div_add, Nat.mod_add, Nat.div_small, Nat.mod_small by lia.
    cbn [Nat.add]. rewrite (nth_error_nth _ _ _ Hv). auto.
  - apply nth_error_ext. intros i. rewrite !nth_error_skipn'. apply A. lia.
Qed.

(** ... and unpackBitsBlock8 gives back the eight values, whatever the target held before and whatever follows. *)
Theorem unpack_pack_block8 : forall w vals buf vals0, 1 <= w <= 63 -> length vals = 8 -> fits w vals -> w <= length buf -> is_bytes buf ->
  length vals0 = 8 ->
  exists buf', pack_block8 vals buf (N.of_nat w) = Ok buf' /\ unpack_block8 vals0 buf' (N.of_nat w) = Ok vals.
Proof.
  intros w vals buf vals0 Hw Hl Hf Hb Hbb H0. destruct (pack_block8_spec w vals buf) as (b' & E & L & B & H & A); auto.
  exists b'. split; auto. rewrite unpack_block8_spec by (auto; lia). f_equal. apply nth_error_ext. intros i.
  destruct (Nat.lt_ge_cases i 8) as [Hi|Hi].
  - rewrite (nth_error_nth' vals i 0%N) by lia. rewrite (map_nth_error (fun i => word b' (i * w) w) i (seq 0 8) (d := i)).
    2:{ rewrite (nth_error_nth' _ _ 0) by (rewrite seq_length; lia). rewrite seq_nth; auto. }
    f_equal. apply word_of_bits.
    + unfold fits in Hf. rewrite Forall_forall in Hf. apply Hf. apply nth_In. lia.
    + intros q Hq. rewrite H by nia. rewrite (Nat.add_comm (i * w)), Nat.div_add, Nat.mod_add, Nat.div_small, Nat.mod_small by lia. auto.
  - rewrite !(proj2 (nth_error_None _ i)); auto; rewrite ?map_length, ?seq_length; lia.
Qed.

(** Any width outside 1..63 is refused by both. *)
Theorem block8_width : forall w vals buf, ~ (1 <= w <= 63)%N -> pack_block8 vals buf w = Err /\ unpack_block8 vals buf w = Err.
Proof.
  intros w vals buf H.
  assert (G : forall A (l : list (N * A)), forallb (fun p => (1 <=? fst p)%N && (fst p <=? 63)%N) l = true -> assoc w l = None).
  { induction l as [|[k a] r IH]; cbn [forallb assoc fst]; auto. intros E. apply andb_prop in E as [E1 E2]. apply andb_prop in E1 as [E0 E1].
    apply N.leb_le in E0, E1. destruct (N.eqb_spec k w); [lia|auto]. }
  unfold pack_block8, unpack_block8. rewrite (G _ pack_switch), (G _ unpack_switch) by (vm_compute; reflexivity). auto.
Qed.

(** packBits at any bit offset, any width up to 64: the bits before are kept, the value's low bits follow, the position advances. *)
Theorem pack_bits_layout : forall value bits buf idx off, off < 8 -> 8 * idx + off + bits <= 8 * length buf -> is_bytes buf ->
  (0 < off -> idx < length buf /\ forall q, off <= q < 8 -> stream_bit buf (8 * idx + q) = false) ->
  exists buf' idx' off', pack_bits value bits buf idx off = Some (buf', idx', off') /\
    8 * idx' + off' = 8 * idx + off + bits /\ off' < 8 /\ length buf' = length buf /\ is_bytes buf' /\
    (forall p, p < 8 * idx + off -> stream_bit buf' p = stream_bit buf p) /\
    holds_at buf' (8 * idx + off) bits [value].
Proof.
  intros value bits buf idx off Ho Hl Hb Hz. destruct (pack_bits_spec value bits buf idx off Ho Hl Hb Hz) as (b' & i' & o' & E & W).
  destruct W as [W1 [W2 W2'] W3 W4 W5 W6 W7]. exists b', i', o'. repeat (split; auto).
  intros [|i] q v Hv Hq; [|destruct i; discriminate]. inversion Hv; subst. cbn [Nat.mul]. rewrite Nat.add_0_r. apply W4. auto.
Qed.

(** packBits over a whole list, then unpackBits: the values come back, at every width and every starting bit offset. *)
Fixpoint pack_list (w : nat) (vs : list N) (buf : list N) (idx off : nat) : option (list N) :=
  match vs with
  | [] => Some buf
  | v :: r => do x <- pack_bits v w buf idx off ; let '(buf', idx', off') := x in pack_list w r buf' idx' off'
  end.
Fixpoint unpack_list (w n : nat) (buf : list N) (idx off : nat) : option (list N) :=
  match n with
  | 0 => Some []
  | S n' => do x <- unpack_bits w buf idx off ; let '(v, idx', off') := x in do r <- unpack_list w n' buf idx' off' ; Some (v :: r)
  end.

Lemma unpack_list_words w : 1 <= w <= 63 -> forall n buf idx off, off < 8 -> is_bytes buf -> 8 * idx + off + w * n <= 8 * length buf ->
  unpack_list w n buf idx off = Some (words buf (8 * idx + off) w n).
Proof.
  intros Hw. induction n as [|n IH]; intros buf idx off Ho Hb Hl; cbn [unpack_list words]; auto.
  destruct (unpack_bits_spec w buf idx off) as (i' & o' & -> & E & Ho'); auto; try lia. cbn [bindo].
  rewrite IH by (auto; lia). cbn [bindo]. rewrite E. auto.
Qed.

Lemma pack_list_ok w : 1 <= w <= 63 -> forall vs buf idx off, off < 8 -> is_bytes buf -> fits w vs ->
  8 * idx + off + w * length vs <= 8 * length buf ->
  (0 < off -> idx < length buf /\ forall q, off <= q < 8 -> bitat buf (8 * idx + q) = false) ->
  exists b', pack_list w vs buf idx off = Some b' /\ length b' = length buf /\ is_bytes b' /\
    (forall p, p < 8 * idx + off -> bitat b' p = bitat buf p) /\ words b' (8 * idx + off) w (length vs) = vs.
Proof.
  intros Hw. induction vs as [|v r IH]; intros buf idx off Ho Hb Hf Hl Hz; cbn [pack_list length words]. { exists buf. auto. }
  inversion Hf; subst. cbn [length] in Hl.
  destruct (pack_bits_spec v w buf idx off Ho ltac:(nia) Hb Hz) as (b1 & i1 & o1 & -> & W). destruct W as [W1 [W2 W2'] W3 W4 W5 W6 W7]. cbn [bindo].
  destruct (IH b1 i1 o1) as (b2 & -> & L2 & B2 & P2 & E2); auto.
  { rewrite W1. nia. }
  { intros H0. split; [rewrite W1; nia|]. intros q Hq. apply W5; auto. }
  exists b2. split; auto. split; [lia|]. split; auto. split. { intros p Hp. rewrite P2 by nia. auto. }
  f_equal.
  - apply word_of_bits; auto. intros q Hq. rewrite P2 by nia. apply W4. auto.
  - rewrite <- W2. exact E2.
Qed.

Theorem unpack_pack_bits : forall w vs buf off, 1 <= w <= 63 -> fits w vs -> is_bytes buf -> off < 8 ->
  off + w * length vs <= 8 * length buf -> (forall p, off <= p < 8 -> stream_bit buf p = false) ->
  exists buf', pack_list w vs buf 0 off = Some buf' /\ unpack_list w (length vs) buf' 0 off = Some vs.
Proof.
  intros w vs buf off Hw Hf Hb Ho Hl Hz.
  destruct (pack_list_ok w Hw vs buf 0 off) as (b' & E & L & B & P & W); auto.
  { intros H. split; [lia|]. intros q Hq. apply Hz. lia. }
  exists b'. split; auto. rewrite unpack_list_words by (auto; lia). rewrite W. auto.
Qed.

(** The two packers write the same format: the w bytes of a block are those of packBits applied eight times. *)
Theorem block8_is_pack_bits : forall w vals, 1 <= w <= 63 -> length vals = 8 -> fits w vals ->
  exists buf, pack_block8 vals (repeat 0%N w) (N.of_nat w) = Ok buf /\ pack_list w vals (repeat 0%N w) 0 0 = Some buf.
Proof.
  intros w vals Hw Hl Hf.
  assert (Hz : is_bytes (repeat 0%N w)) by (apply Forall_forall; intros x Hx; apply repeat_spec in Hx; subst; lia).
  destruct (pack_block8_spec w vals (repeat 0%N w)) as (b' & E & L & B & H & A); auto. { rewrite repeat_length. lia. }
  destruct (pack_list_ok w Hw vals (repeat 0%N w) 0 0) as (b2 & E2 & L2 & B2 & P2 & W2); auto; try lia.
  { rewrite repeat_length. nia. }
  exists b'. split; auto. rewrite E2. f_equal. rewrite repeat_length in *.
  assert (Hw8 : words b' 0 w 8 = vals).
  { rewrite <- words_map8. apply nth_error_ext. intros i. destruct (Nat.lt_ge_cases i 8) as [Hi|Hi].
    - rewrite (nth_error_nth' vals i 0%N) by lia. rewrite (map_nth_error (fun i => word b' (i * w) w) i (seq 0 8) (d := i)).
      2:{ rewrite (nth_error_nth' _ _ 0) by (rewrite seq_length; lia). rewrite seq_nth; auto. }
      f_equal. apply word_of_bits.
      + unfold fits in Hf. rewrite Forall_forall in Hf. apply Hf. apply nth_In. lia.
      + intros q Hq. rewrite H by nia. rewrite (Nat.add_comm (i * w)), Nat.div_add, Nat.mod_add, Nat.div_small, Nat.mod_small by lia. auto.
    - rewrite !(proj2 (nth_error_None _ i)); auto; rewrite ?map_length, ?seq_length; lia. }
  rewrite Hl in W2. cbn [Nat.mul Nat.add] in W2. rewrite <- Hw8 in W2.
  assert (Hbits : forall n base, words b2 base w n = words b' base w n -> forall q, q < n * w -> bitat b2 (base + q) = bitat b' (base + q)).
  { induction n as [|n IH]; intros base Hx q Hq; [lia|]. cbn [words] in Hx. inversion Hx as [[X1 X2]].
    destruct (Nat.lt_ge_cases q w) as [Hqw|Hqw].
    - pose proof (f_equal (fun z => N.testbit z (N.of_nat (w - 1 - q))) X1) as Y. cbv beta in Y. rewrite !word_testbit in Y.
      destruct (N.ltb_spec (N.of_nat (w - 1 - q)) (N.of_nat w)); [|lia]. cbn [andb] in Y.
      replace (base + w - 1 - N.to_nat (N.of_nat (w - 1 - q))) with (base + q) in Y by lia. auto.
    - pose proof (IH (base + w) X2 (q - w) ltac:(lia)) as Y. replace (base + w + (q - w)) with (base + q) in Y by lia. auto. }
  apply nth_error_ext. intros i. destruct (Nat.lt_ge_cases i w) as [Hi|Hi].
  2:{ rewrite !(proj2 (nth_error_None _ i)); auto; lia. }
  rewrite (nth_error_nth' b2 i 0%N), (nth_error_nth' b' i 0%N) by lia. f_equal. apply N.bits_inj. intros k.
  destruct (N.lt_ge_cases k 8) as [Hk|Hk].
  - pose proof (Hbits 8 0 W2 (8 * i + (7 - N.to_nat k)) ltac:(nia)) as Y. cbn [Nat.add] in Y. rewrite !bitat_at in Y by lia.
    replace (N.of_nat (7 - (7 - N.to_nat k))) with k in Y by lia. auto.
  - unfold is_bytes in *. rewrite !(testbit_high _ 8); auto; apply nth_byte; auto; lia.
Qed.

(** ** C10, C11: round trips *)

(** A sketch an API call can return (wf_sketch, see ThetaProps), small enough for the 32-bit entry count of the format. *)
Definition storable (s : sketch) : Prop :=
  wf_sketch s /\ (N.of_nat (length (sk_entries s)) < 2 ^ 32)%N /\ (sk_seed s < 2 ^ 16)%N.
(** The decoded sketch: same entries in the same order, theta, seed hash and emptiness; a sketch with at most one entry
    is reported ordered. *)
Definition same_content (s s' : sketch) : Prop :=
  sk_entries s' = sk_entries s /\ sk_theta s' = sk_theta s /\ sk_seed s' = sk_seed s /\ sk_empty s' = sk_empty s /\
  sk_ordered s' = (sk_ordered s || (length (sk_entries s) <=? 1)).

Lemma storable_ser s : storable s -> serializable s.
Proof.
  intros ([W1 W2 W3 W4 W5] & Hn & Hs). constructor; auto. rewrite Forall_forall. intros h Hh. destruct (W2 h Hh) as [_ A].
  assert (MaxTheta < 2 ^ 63)%N by reflexivity. lia.
Qed.
Lemma sorted_lt l : NoDup l -> StronglySorted N.le l -> StronglySorted N.lt l.
Proof.
  induction l as [|x r IH]; intros Hn Hs; constructor; inversion Hn; inversion Hs; subst; auto.
  rewrite Forall_forall in *. intros y Hy. pose proof (H6 y Hy). assert (x <> y) by (intros ->; auto). lia.
Qed.
Lemma storable_pack s : storable s -> packable s.
Proof.
  intros H. split; [apply storable_ser; auto|]. destruct H as ([W1 W2 W3 W4 W5] & _). intros Ho. constructor.
  - apply sorted_lt; auto.
  - rewrite Forall_forall. intros h Hh. apply W2; auto.
Qed.

(** MarshalBinary then Decode with the same seed. The image of an empty sketch is accepted under any seed. *)
Theorem theta_uncompressed_round_trip : forall s want, storable s -> (sk_empty s = true \/ want = Some (sk_seed s)) ->
  exists b s', encode false s = Ok b /\ length b = serialized_size s false /\ is_bytes b /\
    decode want b = Ok s' /\ same_content s s'.
Proof.
  intros s want H Hw. exists (plain_bytes s), (norm s). unfold encode. cbn [andb]. rewrite encode_plain_eq. split; auto.
  split; [apply plain_bytes_length|]. split; [apply plain_bytes_Forall|]. split; [apply plain_round_trip; auto; apply storable_ser; auto|].
  repeat split.
Qed.

(** Encoder with compression, then Decode. *)
Theorem theta_compressed_round_trip : forall s want, storable s -> (sk_empty s = true \/ want = Some (sk_seed s)) ->
  exists b s', encode true s = Ok b /\ length b = serialized_size s true /\ is_bytes b /\
    decode want b = Ok s' /\ same_content s s'.
Proof.
  intros s want H Hw. destruct (suitable s) eqn:Es.
  2:{ destruct (theta_uncompressed_round_trip s want H Hw) as (b & s' & E & L & B & D & C). exists b, s'. unfold encode, serialized_size in *.
      rewrite Es. cbn [andb] in *. auto. }
  destruct (suitable_parts s Es) as (Ho & Hl & H1). pose proof (storable_ser s H) as Hs.
  assert (He : sk_empty s = false). { destruct (sk_empty s) eqn:Ee; auto. destruct (se_empty s Hs Ee) as [E _]. rewrite E in Hl. cbn in Hl. lia. }
  destruct Hw as [Hw|Hw]; [congruence|]. subst want.
  destruct (entry_bits_range s (storable_pack s H) Es) as (w & Ew & Hw). destruct (num_bytes_range s Hs Hl) as (nb & Enb & Hnb & Hn).
  pose proof (deltas_below_size (sk_entries s)) as Hd. fold (entry_bits s) in Hd. rewrite Ew in Hd.
  destruct (encode_v4_ok s w nb Hs Hw Hnb Hd) as (t & E & Lt & Bt & Wt).
  exists (v4_head s w nb ++ t), s. unfold encode, serialized_size. rewrite Es. cbn [andb]. rewrite Ew, Enb, E. split; auto.
  split. { rewrite app_length, v4_head_length, Lt. unfold compressed_size. rewrite Nat2N.id. lia. }
  split. { apply Forall_app. split; auto. unfold v4_head. rewrite !Forall_app. repeat split; try apply le_bytes.
    - repeat constructor; try lia. unfold preamble_longs. destruct (est s); cbn; lia.
    - destruct (est s); cbn [sec]; auto. apply le_bytes. }
  split. { apply v4_round_trip; auto. }
  repeat split. rewrite Ho. auto.
Qed.

(** Compression never makes the image longer. *)
Theorem theta_compressed_not_larger : forall s, storable s -> serialized_size s true <= serialized_size s false.
Proof.
  intros s H. unfold serialized_size. destruct (suitable s) eqn:Es; cbn [andb]; auto.
  destruct (suitable_parts s Es) as (Ho & Hl & H1). pose proof (storable_ser s H) as Hs.
  destruct (entry_bits_range s (storable_pack s H) Es) as (w & Ew & Hw). destruct (num_bytes_range s Hs Hl) as (nb & Enb & Hnb & Hn).
  unfold compressed_size. rewrite Ew, Enb, Nat2N.id. destruct (whole_bytes_spec (N.of_nat w * N.of_nat (length (sk_entries s)))) as [_ B].
  assert (Hwn : w * length (sk_entries s) <= 63 * length (sk_entries s)) by nia.
  assert (He : sk_empty s = false). { destruct (sk_empty s) eqn:Ee; auto. destruct (se_empty s Hs Ee) as [E _]. rewrite E in Hl. cbn in Hl. lia. }
  unfold preamble_longs. destruct (est s) eqn:E; [lia|]. rewrite He. cbn [orb]. destruct (Nat.eqb_spec (length (sk_entries s)) 1) as [A|A]; [apply H1 in A; discriminate|]. lia.
Qed.

(** ** C54: damaged or foreign images *)

Lemma rd_prefix k off n b v : rd k off (firstn n b) = Ok v -> rd k off b = Ok v.
Proof.
  unfold rd, get_le, slice. rewrite firstn_length. destruct (Nat.leb_spec (off + k) (Nat.min n (length b))); [|discriminate].
  destruct (Nat.leb_spec (off + k) (length b)); [|lia]. cbn [of_opt]. intros <-. f_equal. f_equal.
  rewrite skipn_firstn_comm, firstn_firstn. f_equal. lia.
Qed.
Lemma at_prefix i n b v : at_ i (firstn n b) = Ok v -> at_ i b = Ok v.
Proof.
  unfold at_. rewrite nth_error_firstn'. destruct (i <? n); [auto|discriminate].
Qed.
Lemma need_prefix n b k u : need (firstn n b) k = Ok u -> need b k = Ok u /\ k <= length (firstn n b).
Proof.
  unfold need. rewrite firstn_length. destruct (Nat.ltb_spec (Nat.min n (length b)) k); [discriminate|].
  destruct (Nat.ltb_spec (length b) k); [lia|]. auto.
Qed.
Lemma read_num_prefix n b : forall k i off acc v, read_num k i off (firstn n b) acc = Ok v -> read_num k i off b acc = Ok v.
Proof.
  induction k as [|k IH]; intros i off acc v H; cbn [read_num] in *; auto.
  destruct (at_ off (firstn n b)) as [x| |] eqn:E; try discriminate. rewrite (at_prefix _ _ _ _ E). cbn [bindr] in *. auto.
Qed.

(** What the header says the image needs. *)
Definition required (d : csd) : nat := if d_empty d then 8 else d_start d + N.to_nat (whole_bytes (d_bits d * d_num d)).

Lemma whole64 n : N.to_nat (whole_bytes (64 * n)) = N.to_nat n * 8.
Proof. destruct (whole_bytes_spec (64 * n)). lia. Qed.


Ltac step1 :=
  match goal with
  | H : bindr (if ?c then _ else _) _ = Ok _ |- _ => let E := fresh "C" in destruct c eqn:E
  | H : bindr ?r _ = Ok _ |- _ => let E := fresh "E" in destruct r eqn:E; cbn [bindr] in H; try discriminate H
  | H : (if ?c then _ else _) = Ok _ |- _ => let E := fresh "C" in destruct c eqn:E
  | H : Err = Ok _ |- _ => discriminate H
  | H : Panic = Ok _ |- _ => discriminate H
  end.
Ltac pref :=
  repeat match goal with
  | E : rd _ _ (firstn _ _) = Ok _ |- _ => apply rd_prefix in E
  | E : at_ _ (firstn _ _) = Ok _ |- _ => apply at_prefix in E
  | E : need (firstn _ _) _ = Ok _ |- _ => apply need_prefix in E; destruct E as [E ?]
  | E : read_num _ _ _ (firstn _ _) _ = Ok _ |- _ => apply read_num_prefix in E
  end.
Ltac replay :=
  repeat (match goal with
  | E : ?r = Ok _ |- context [bindr ?r _] => rewrite E
  | E : ?r = Ok _ |- ?r = Ok _ => rewrite E
  | E : ?c = true |- context [if ?c then _ else _] => rewrite E
  | E : ?c = false |- context [if ?c then _ else _] => rewrite E
  end; cbn [bindr]).

Lemma decode_data_prefix want n b d : decode_data want (firstn n b) = Ok d -> decode_data want b = Ok d /\ required d <= length (firstn n b).
Proof.
  unfold decode_data, decode_v4, decode_v3, decode_v2, decode_v1. cbv zeta. intros H.
  repeat step1; cbv zeta in *; pref;
  (split; [replay; try exact H; try reflexivity|inversion H; subst; unfold required; cbn [d_empty d_start d_bits d_num]; rewrite ?whole64; try lia]).
Qed.

Lemma decode_ok_data want b s : decode want b = Ok s -> exists d, decode_data want b = Ok d.
Proof. unfold decode. destruct (decode_data want b) as [d| |]; cbn [bindr]; try discriminate. eauto. Qed.

Lemma prefix_refused want b d n : decode_data want b = Ok d -> n < required d -> forall s, decode want (firstn n b) <> Ok s.
Proof.
  intros H Hn s Hs. apply decode_ok_data in Hs as [d' Hd]. apply decode_data_prefix in Hd as [E R]. rewrite H in E. inversion E; subst d'.
  rewrite firstn_length in R. lia.
Qed.


(** The three pieces of an encoding: how it is decoded, and that its length is what the header requires. *)
Lemma encoding_header s c b : storable s -> encode c s = Ok b ->
  exists d, decode_data (Some (sk_seed s)) b = Ok d /\ required d = length b /\ d_empty d = sk_empty s /\ (exists v, at_ 1 b = Ok v /\ v <> 1%N) /\ is_bytes b.
Proof.
  intros H Hb. pose proof (storable_ser s H) as Hs.
  destruct (c && suitable s) eqn:Ec.
  - apply andb_prop in Ec as [-> Es]. destruct (suitable_parts s Es) as (Ho & Hl & H1).
    assert (He : sk_empty s = false). { destruct (sk_empty s) eqn:Ee; auto. destruct (se_empty s Hs Ee) as [E _]. rewrite E in Hl. cbn in Hl. lia. }
    destruct (entry_bits_range s (storable_pack s H) Es) as (w & Ew & Hw). destruct (num_bytes_range s Hs Hl) as (nb & Enb & Hnb & Hn).
    pose proof (deltas_below_size (sk_entries s)) as Hd. fold (entry_bits s) in Hd. rewrite Ew in Hd.
    destruct (encode_v4_ok s w nb Hs Hw Hnb Hd) as (t & E & Lt & Bt & Wt).
    assert (Eb : b = v4_head s w nb ++ t). { unfold encode in Hb. rewrite Es in Hb. cbn [andb] in Hb. rewrite Ew, Enb, E in Hb. inversion Hb; auto. }
    subst b. exists (v4_csd s w nb). split; [apply v4_decode_data; auto|]. split.
    { unfold required, v4_csd. cbn [d_empty d_start d_bits d_num]. rewrite app_length, v4_head_length, Lt. auto. }
    split; [rewrite He; auto|]. split; [exists 4%N; split; [reflexivity|lia]|].
    destruct (theta_compressed_round_trip s (Some (sk_seed s)) H (or_intror eq_refl)) as (b & s' & E' & _ & B & _). rewrite Hb in E'. inversion E'; subst. exact B.
  - assert (Eb : b = plain_bytes s) by (unfold encode in Hb; rewrite Ec, encode_plain_eq in Hb; inversion Hb; auto). subst b.
    exists (plain_csd s). split; [apply plain_decode_data; auto|]. split.
    { rewrite plain_bytes_length. unfold serialized_size, required, plain_csd. cbn [andb d_empty d_start d_bits d_num]. rewrite whole64, Nat2N.id.
      destruct (sk_empty s) eqn:Ee; [|lia]. destruct (se_empty s Hs Ee) as [E1 E2]. unfold preamble_longs, est. rewrite E1, Ee. cbn [negb]. rewrite andb_false_r. auto. }
    split; auto. split; [exists 3%N; split; [reflexivity|lia]|]. apply plain_bytes_Forall.
Qed.

(** No strict prefix of an image, compressed or not, is accepted as a sketch. *)
Theorem theta_truncated_refused : forall s c b n, storable s -> encode c s = Ok b -> n < length b ->
  forall s', decode (Some (sk_seed s)) (firstn n b) <> Ok s'.
Proof.
  intros s c b n H Hb Hn. destruct (encoding_header s c b H Hb) as (d & Hd & R & _). apply (prefix_refused _ _ d); auto. lia.
Qed.

Lemma wrong_seed_data x y b d v : decode_data (Some x) b = Ok d -> d_empty d = false -> at_ 1 b = Ok v -> v <> 1%N -> y <> x ->
  decode_data (Some y) b = Err.
Proof.
  unfold decode_data, decode_v4, decode_v3, decode_v2, decode_v1. cbv zeta. intros H He Hv Hv1 Hy.
  rewrite Hv in *. repeat step1; cbv zeta in *;
  repeat match goal with E1 : Ok v = Ok _ |- _ => inversion E1; subst; clear E1 end; inversion H; subst; try discriminate He; replay;
  repeat match goal with
  | E : check_seed (Some x) ?z = Ok _ |- _ => cbn [check_seed] in E; destruct (N.eqb_spec z x); [subst z|discriminate E]
  end; cbn [check_seed]; rewrite ?(proj2 (N.eqb_neq x y) (not_eq_sym Hy)); cbn [bindr];
  repeat match goal with E : ?c = _ |- context [if ?c then _ else _] => rewrite E; cbn [bindr] end; auto;
  try (match goal with E : (v =? 1)%N = true |- _ => apply N.eqb_eq in E; congruence end).
  all: destruct (N.eqb_spec x y); [congruence|]; reflexivity.
Qed.

(** A non-empty image is refused under any other seed. *)
Theorem theta_wrong_seed_refused : forall s c b x, storable s -> sk_empty s = false -> encode c s = Ok b -> x <> sk_seed s ->
  decode (Some x) b = Err.
Proof.
  intros s c b x H He Hb Hx. destruct (encoding_header s c b H Hb) as (d & Hd & R & Em & (v & Hv & Hv1) & _).
  unfold decode. rewrite (wrong_seed_data (sk_seed s) x b d v); auto. congruence.
Qed.

(** ** C55: the wrapped sketch *)

(** WrapCompactSketch and Decode agree on every byte string that Decode accepts: the wrapped sketch's All() yields exactly the
    entries of the decoded sketch, and its theta, seed hash, emptiness and count are the decoded ones. *)
Lemma dec_blocks_width fuel w n ptr x : dec_blocks fuel w n ptr = Ok x -> 8 <= n -> (1 <= w <= 63)%N.
Proof.
  destruct fuel as [|f]; [discriminate|]. cbn [dec_blocks]. intros H Hn. destruct (Nat.leb_spec 8 n); [|lia].
  destruct (N.le_gt_cases 1 w); [destruct (N.le_gt_cases w 63); auto|]; rewrite (proj2 (block8_width w _ ptr ltac:(lia))) in H; discriminate H.
Qed.

Lemma wrap_rest_dec w bytes : forall n idx boff prev, wrap_rest w n bytes idx boff prev =
  match dec_rest w n bytes idx boff with Ok ds => Ok (undelta prev ds) | Err => Err | Panic => Panic end.
Proof.
  induction n as [|n IH]; intros idx boff prev; cbn [wrap_rest dec_rest undelta]; auto.
  destruct (of_opt (unpack_bits w bytes idx boff)) as [[[v i'] o']| |]; cbn [bindr]; auto. rewrite IH. destruct (dec_rest w n bytes i' o'); cbn [bindr undelta]; auto.
Qed.

Theorem wrapped_equals_decoded : forall want b s d, is_bytes b -> decode_data want b = Ok d -> decode want b = Ok s ->
  wrapped_all d b = Ok (sk_entries s) /\ d_theta d = sk_theta s /\ d_seed d = sk_seed s /\ d_empty d = sk_empty s /\
  N.to_nat (d_num d) = length (sk_entries s).
Proof.
  intros want b s d Hb Hd Hs. assert (Hreq : d_empty d = true /\ d_num d = 0%N \/ required d = d_start d + N.to_nat (whole_bytes (d_bits d * d_num d)) /\ required d <= length b).
  { destruct (d_empty d) eqn:Ee.
    - left. split; auto. clear Hs. revert Hd Ee. unfold decode_data, decode_v4, decode_v3, decode_v2, decode_v1. cbv zeta. intros H He.
      repeat step1; inversion H; subst; auto; discriminate He.
    - right. split. { unfold required. rewrite Ee. auto. }
      pose proof Hd as Hd'. rewrite <- (firstn_all b) in Hd'. apply decode_data_prefix in Hd' as [_ R]. rewrite firstn_all in R. auto. }
  assert (HE : forall e, Ok (from_entries d e) = Ok s -> sk_entries s = e /\ d_theta d = sk_theta s /\ d_seed d = sk_seed s /\ d_empty d = sk_empty s).
  { intros e E. inversion E; subst. unfold from_entries. cbn. auto. }
  unfold decode in Hs. rewrite Hd in Hs. cbn [bindr] in Hs. unfold wrapped_all. destruct (d_bits d =? 64)%N eqn:E64.
  - destruct (read_entries (N.to_nat (d_num d)) (d_start d) b) as [es| |] eqn:Er; cbn [bindr] in Hs; try discriminate Hs.
    destruct (HE es Hs) as (-> & A & B & C). repeat (split; auto).
    clear - Er. revert es Er. generalize (d_start d). induction (N.to_nat (d_num d)) as [|n IH]; intros o es H; cbn [read_entries] in H.
    { inversion H; auto. }
    destruct (rd 8 o b); cbn [bindr] in H; try discriminate H. destruct (read_entries n (o + 8) b) eqn:E; cbn [bindr] in H; try discriminate H.
    inversion H; subst. cbn [length]. rewrite <- (IH _ _ E). auto.
  - destruct (Nat.leb_spec (d_start d) (length b)) as [Hst|]; [|discriminate Hs]. cbn [of_opt bindr] in Hs |- *.
    set (t := skipn (d_start d) b) in *. set (n := N.to_nat (d_num d)) in *.
    assert (Ht : is_bytes t) by (unfold is_bytes in *; rewrite <- (firstn_skipn (d_start d) b) in Hb; apply Forall_app in Hb as [_ Hb]; exact Hb).
    assert (Len : forall w n t i o ds, dec_rest w n t i o = Ok ds -> length ds = n).
    { clear. induction n as [|n IH]; intros t i o ds H; cbn [dec_rest] in H; [inversion H; auto|].
      destruct (of_opt (unpack_bits w t i o)) as [[[v i'] o']| |]; cbn [bindr] in H; try discriminate H.
      destruct (dec_rest w n t i' o') eqn:E; cbn [bindr] in H; try discriminate H. inversion H; subst. cbn [length]. erewrite IH; eauto. }
    assert (Lu : forall ds p, length (undelta p ds) = length ds) by (clear; induction ds; intros; cbn [undelta length]; auto).
    destruct (Nat.lt_ge_cases n 8) as [H8|H8].
    + cbn [dec_blocks wrap_blocks] in *. destruct (Nat.leb_spec 8 n); [lia|]. cbn [bindr] in *.
      rewrite wrap_rest_dec. destruct (dec_rest (N.to_nat (d_bits d)) n t 0 0) as [ds| |] eqn:Er; cbn [bindr app] in *; try discriminate Hs.
      destruct (HE _ Hs) as (-> & A & B & C). rewrite Lu, (Len _ _ _ _ _ _ Er). auto.
    + destruct (dec_blocks (S n) (d_bits d) n t) as [[[ds n'] p']| |] eqn:Eb; cbn [bindr] in Hs; try discriminate Hs.
      pose proof (dec_blocks_width _ _ _ _ _ Eb H8) as Hw. set (w := N.to_nat (d_bits d)) in *.
      replace (d_bits d) with (N.of_nat w) in Eb |- * by (unfold w; lia). assert (Hw' : 1 <= w <= 63) by (unfold w; lia).
      assert (Hk : w * n <= 8 * length t).
      { destruct Hreq as [[_ Hz]|[R1 R2]]; [unfold n in H8; rewrite Hz in H8; cbn in H8; lia|]. unfold t. rewrite skipn_length.
        destruct (whole_bytes_spec (d_bits d * d_num d)) as [W _]. unfold w, n. lia. }
      destruct (dec_blocks_spec w Hw' (S n) n t) as (ds1 & n1 & p1 & Eb1 & Ew1 & Hn1 & Hk1 & Hb1); auto.
      rewrite Eb in Eb1. inversion Eb1; subst ds1 n1 p1. clear Eb1.
      rewrite dec_rest_spec in Hs by (auto; lia). cbn [bindr] in Hs. cbn [Nat.mul Nat.add] in Hs. rewrite <- Ew1 in Hs.
      destruct (HE _ Hs) as (-> & A & B & C).
      destruct (wrap_blocks_spec w Hw' (S n) n t 0 0%N) as (es & n2 & b2 & p2 & E2 & Eu & Hk2); auto.
      rewrite E2. cbn [bindr]. rewrite wrap_rest_spec by (auto; lia). cbn [bindr]. rewrite Nat.add_0_r.
      change (8 * 0) with 0 in Eu. rewrite Eu. split; auto. repeat (split; auto). rewrite <- Eu, Lu.
      clear. generalize 0. induction n; intros; cbn [words length]; auto.
Qed.

(** In particular for every image the encoder writes. *)
Theorem wrapped_encoding : forall s c b, storable s -> encode c s = Ok b ->
  exists d, decode_data (Some (sk_seed s)) b = Ok d /\ wrapped_all d b = Ok (sk_entries s) /\ d_theta d = sk_theta s /\
    d_empty d = sk_empty s /\ d_seed d = sk_seed s.
Proof.
  intros s c b H Hb. destruct (encoding_header s c b H Hb) as (d & Hd & _ & _ & _ & B). exists d. split; auto.
  assert (HD : exists s', decode (Some (sk_seed s)) b = Ok s' /\ same_content s s').
  { destruct c.
    - destruct (theta_compressed_round_trip s (Some (sk_seed s)) H (or_intror eq_refl)) as (b' & s' & E & _ & _ & D & C). rewrite Hb in E. inversion E; subst. eauto.
    - destruct (theta_uncompressed_round_trip s (Some (sk_seed s)) H (or_intror eq_refl)) as (b' & s' & E & _ & _ & D & C). rewrite Hb in E. inversion E; subst. eauto. }
  destruct HD as (s' & D & C1 & C2 & C3 & C4 & C5). destruct (wrapped_equals_decoded _ _ _ _ B Hd D) as (W1 & W2 & W3 & W4 & W5).
  rewrite W1, W2, W3, W4, C1, C2, C3, C4. auto.
Qed.

(** ** Findings *)

(** Decode panics instead of returning an error on some truncated or damaged input (here: 8 bytes announcing two
    preamble longs). *)
Theorem theta_decode_panics_refuted : exists b, is_bytes b /\ decode (Some 7%N) b = Panic.
Proof. exists [2; 3; 3; 0; 0; 0; 7; 0]%N. split; [repeat constructor|]; vm_compute; reflexivity. Qed.

(** A wrapped sketch panics while iterating over bytes that Decode refuses with an error (entry width 0, eight entries). *)
Theorem wrapped_panics_refuted : exists b d, is_bytes b /\ decode_data (Some 7%N) b = Ok d /\ decode (Some 7%N) b = Err /\ wrapped_all d b = Panic.
Proof.
  exists [1; 4; 3; 0; 1; 0; 7; 0; 8]%N. eexists. split; [repeat constructor|]. split; [vm_compute; reflexivity|]. split; vm_compute; reflexivity.
Qed.

(** MaxSerializedSizeBytes(lgK) is smaller than sketches it is meant to bound: with a table capacity of 3840 (lgK 12) it
    answers 24, while an ordered sketch of three entries already takes 40 bytes. *)
Theorem max_serialized_size_refuted : exists s, storable s /\ (max_serialized_size 12 3840 < N.of_nat (serialized_size s false))%N.
Proof.
  exists (mkSketch [1; 2; 3]%N MaxTheta 7 false true). split; [|vm_compute; reflexivity].
  split; [|split; vm_compute; reflexivity]. constructor; cbn [sk_entries sk_theta sk_ordered sk_empty].
  - repeat constructor; cbn; intuition lia.
  - intros h Hh. cbn in Hh. assert (3 < MaxTheta)%N by reflexivity. intuition lia.
  - lia.
  - intros _. repeat constructor; lia.
  - discriminate.
Qed.

(** ** Non-vacuity *)
Definition ex_entries : list N := [5; 17; 1000; 70000; 70001; 2 ^ 40; 2 ^ 40 + 3; 2 ^ 50; 2 ^ 50 + 1; 2 ^ 60; 2 ^ 61]%N.
Definition ex_sk : sketch := mkSketch ex_entries (2 ^ 62)%N 37836 false true.
Example ex_storable : storable ex_sk.
Proof.
  split; [|split; vm_compute; reflexivity]. constructor; cbn [sk_entries sk_theta sk_ordered sk_empty ex_sk].
  - unfold ex_entries. repeat constructor; cbn; intuition discriminate.
  - intros h Hh. change (In h ex_entries) in Hh. unfold ex_entries in Hh. repeat (destruct Hh as [<-|Hh]; [split; reflexivity|]). destruct Hh.
  - unfold MaxTheta. vm_compute. discriminate.
  - intros _. unfold ex_entries. repeat constructor; vm_compute; discriminate.
  - discriminate.
Qed.
Example ex_compressed : exists b, encode true ex_sk = Ok b /\ length b = 101 /\ decode (Some 37836%N) b = Ok ex_sk.
Proof. eexists. split; [vm_compute; reflexivity|]. split; vm_compute; reflexivity. Qed.
Example ex_plain : exists b, encode false ex_sk = Ok b /\ length b = 112 /\ decode (Some 37836%N) b = Ok ex_sk.
Proof. eexists. split; [vm_compute; reflexivity|]. split; vm_compute; reflexivity. Qed.
Example ex_pack : pack_block8 [1; 2; 3; 4; 5; 6; 7; 0]%N (repeat 0%N 3) 3 = Ok [0x29; 0xCB; 0xB8]%N.
Proof. vm_compute. reflexivity. Qed.

Print Assumptions unpack_pack_block8.
Print Assumptions theta_compressed_round_trip.
Print Assumptions wrapped_equals_decoded.
