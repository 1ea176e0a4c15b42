(** * The entropy coder of the CPC sketch: writing then reading returns what was written. *)
From Verif Require Import Base Bytes Arr BitPackModel BitPackProofs CpcTable CpcTableProofs CpcModel CpcProofs CpcTables CpcCodeModel.
Local Open Scope nat_scope.

(** ** Numbers *)
Definition p2 (n : nat) : N := (2 ^ N.of_nat n)%N.
Lemma p2_add a b : p2 (a + b) = (p2 a * p2 b)%N.
Proof. unfold p2. rewrite Nat2N.inj_add. apply N.pow_add_r. Qed.
Lemma p2_pos n : (0 < p2 n)%N.
Proof. unfold p2. assert (2 ^ N.of_nat n <> 0)%N by (apply N.pow_nonzero; lia). lia. Qed.
Lemma p2_nz n : p2 n <> 0%N.
Proof. pose proof (p2_pos n). lia. Qed.
Lemma p2_le a b : a <= b -> (p2 a <= p2 b)%N.
Proof. intros. unfold p2. apply N.pow_le_mono_r; lia. Qed.
Lemma p2_1 n : p2 (S n) = (2 * p2 n)%N.
Proof. change (S n) with (1 + n). rewrite p2_add. reflexivity. Qed.

Lemma lor_add a b n : (a < p2 n)%N -> N.lor a (N.shiftl b (N.of_nat n)) = (a + p2 n * b)%N.
Proof.
  intros H. assert (Z : N.land a (N.shiftl b (N.of_nat n)) = 0%N).
  { apply N.bits_inj. intros k. rewrite N.land_spec, N.bits_0, shiftl_testbit.
    destruct (N.leb_spec (N.of_nat n) k); [rewrite (testbit_high a (N.of_nat n)); auto|]. rewrite andb_false_l, andb_false_r. auto. }
  rewrite <- N.lxor_lor by auto. rewrite <- N.add_nocarry_lxor by auto. rewrite N.shiftl_mul_pow2. unfold p2. lia.
Qed.
Lemma u64_small x : (x < p2 64)%N -> u64 x = x.
Proof. intros. unfold u64. apply N.mod_small. auto. Qed.
Lemma shiftl_p2 b n : N.shiftl b (N.of_nat n) = (p2 n * b)%N.
Proof. rewrite N.shiftl_mul_pow2. unfold p2. lia. Qed.
Lemma shiftr_p2 b n : N.shiftr b (N.of_nat n) = (b / p2 n)%N.
Proof. rewrite N.shiftr_div_pow2. auto. Qed.
Lemma land_p2 a n : N.land a (p2 n - 1) = (a mod p2 n)%N.
Proof. unfold p2. rewrite <- N.pred_sub, <- N.ones_equiv. apply N.land_ones. Qed.
Lemma land32 a : N.land a 4294967295 = (a mod p2 32)%N.
Proof. apply (land_p2 a 32). Qed.
Lemma land12 a : N.land a 4095 = (a mod p2 12)%N.
Proof. apply (land_p2 a 12). Qed.
Lemma land_shl1 a b : N.land a (N.shiftl 1 (N.of_nat b) - 1) = (a mod p2 b)%N.
Proof. rewrite shiftl_p2, N.mul_1_r. apply land_p2. Qed.

Lemma mod_p2_split x a b : (x mod p2 (a + b) = x mod p2 a + p2 a * ((x / p2 a) mod p2 b))%N.
Proof. rewrite p2_add. apply N.mod_mul_r; apply p2_nz. Qed.
Lemma div_p2 x a b : (x / p2 (a + b) = x / p2 a / p2 b)%N.
Proof. rewrite p2_add. symmetry. apply N.div_div; apply p2_nz. Qed.
Lemma mod_div_p2 x a b : (x mod p2 (a + b) / p2 a = (x / p2 a) mod p2 b)%N.
Proof.
  rewrite mod_p2_split, N.mul_comm, N.div_add by apply p2_nz.
  rewrite N.div_small by (apply N.mod_lt, p2_nz). auto.
Qed.
Lemma mod_mod_p2 x a b : a <= b -> ((x mod p2 b) mod p2 a = x mod p2 a)%N.
Proof.
  intros H. replace b with (a + (b - a)) by lia. rewrite mod_p2_split, N.mul_comm, N.mod_add by apply p2_nz.
  apply N.mod_mod, p2_nz.
Qed.
Lemma add_p2_div v r n : (v < p2 n)%N -> ((v + p2 n * r) / p2 n = r)%N.
Proof. intros. rewrite N.mul_comm, N.div_add by apply p2_nz. rewrite N.div_small; auto. Qed.
Lemma add_p2_mod v r n : (v < p2 n)%N -> ((v + p2 n * r) mod p2 n = v)%N.
Proof. intros. rewrite N.mul_comm, N.mod_add by apply p2_nz. apply N.mod_small; auto. Qed.
Lemma add_p2_lt v r n m : (v < p2 n)%N -> (r < p2 m)%N -> (v + p2 n * r < p2 (n + m))%N.
Proof. intros. rewrite p2_add. nia. Qed.

(** ** Words as one number *)
Fixpoint wval (l : list N) : N := match l with [] => 0%N | x :: r => (x + p2 32 * wval r)%N end.
Lemma wval_cons x r : wval (x :: r) = (x + p2 32 * wval r)%N. Proof. reflexivity. Qed.
Lemma wval_app a b : wval (a ++ b) = (wval a + p2 (32 * length a) * wval b)%N.
Proof.
  induction a as [|x a IH]; [cbn [app length wval]; change (p2 (32 * 0)) with 1%N; lia|].
  cbn [app length]. rewrite !wval_cons, IH. replace (32 * S (length a)) with (32 + 32 * length a) by lia. rewrite p2_add. lia.
Qed.
Definition w32 (l : list N) : Prop := Forall (fun x => (x < p2 32)%N) l.
Lemma wval_word l : w32 l -> forall i x, nth_error l i = Some x -> ((wval l / p2 (32 * i)) mod p2 32 = x)%N.
Proof.
  induction 1 as [|y l Hy Hl IH]; intros [|i] x; cbn [nth_error]; try discriminate.
  - intros [= <-]. change (p2 (32 * 0)) with 1%N. rewrite N.div_1_r, wval_cons. apply add_p2_mod; auto.
  - intros E. rewrite wval_cons. replace (32 * S i) with (32 + 32 * i) by lia. rewrite div_p2, add_p2_div by auto. auto.
Qed.

(** ** Chunks: the bits written, least significant first *)
Fixpoint sval (l : list (N * nat)) : N := match l with [] => 0%N | (v, n) :: r => (v + p2 n * sval r)%N end.
Fixpoint slen (l : list (N * nat)) : nat := match l with [] => 0 | (_, n) :: r => n + slen r end.
Lemma sval_cons v n r : sval ((v, n) :: r) = (v + p2 n * sval r)%N. Proof. reflexivity. Qed.
Lemma slen_cons (v : N) n r : slen ((v, n) :: r) = n + slen r. Proof. reflexivity. Qed.

(** ** The writer *)
Record wrel (cap : nat) (w : bw) (V : N) (L : nat) : Prop := {
  wr_cap : length (w_arr w) = cap;
  wr_L : L = 32 * w_idx w + w_bits w;
  wr_bits : w_bits w < 32;
  wr_buf : (w_buf w < p2 (w_bits w))%N;
  wr_idx : w_idx w <= cap;
  wr_32 : w32 (firstn (w_idx w) (w_arr w));
  wr_V : V = (wval (firstn (w_idx w) (w_arr w)) + p2 (32 * w_idx w) * w_buf w)%N }.

Lemma firstn_upd_last {A} (l : list A) i x : i < length l -> firstn (i + 1) (upd i x l) = firstn i l ++ [x].
Proof.
  revert i. induction l as [|y l IH]; intros [|i] H; simpl in *; try lia; auto. f_equal. apply IH. lia.
Qed.
Lemma wr_ok {A} i (x : A) l : i < length l -> wr i x l = Some (upd i x l).
Proof. intros. unfold wr. destruct (Nat.ltb_spec i (length l)); auto; lia. Qed.
Lemma w32_app a b : w32 a -> w32 b -> w32 (a ++ b).
Proof. intros; apply Forall_app; auto. Qed.

(** After [len] more bits with value [c] the flush keeps the relation. *)
Lemma flush_rel cap w V L c len : wrel cap w V L -> (c < p2 len)%N -> len <= 32 -> L + len <= 32 * cap ->
  exists w', flush (mkBw (w_arr w) (w_idx w) (w_buf w + p2 (w_bits w) * c)%N (w_bits w + len)) = Ok w' /\
    wrel cap w' (V + p2 L * c)%N (L + len).
Proof.
  intros [Hc HL Hb Hf Hi H32 HV] Hcd Hl Hcap. unfold flush. cbn [w_bits w_idx w_arr w_buf].
  set (B := w_bits w) in *. set (I := w_idx w) in *. set (a := w_arr w) in *. set (f := w_buf w) in *.
  pose proof (add_p2_lt f c B len Hf Hcd) as Hn.
  assert (HV' : (V + p2 L * c = wval (firstn I a) + p2 (32 * I) * (f + p2 B * c))%N).
  { rewrite HV, HL, p2_add. lia. }
  destruct (Nat.leb_spec 32 (B + len)) as [G|G].
  - rewrite wr_ok by lia. cbn [of_opt bindr]. eexists. split; [reflexivity|]. rewrite land32.
    change (N.shiftr (f + p2 B * c) 32) with (N.shiftr (f + p2 B * c) (N.of_nat 32)). rewrite shiftr_p2.
    set (Z := (f + p2 B * c)%N) in *.
    assert (FU : firstn (I + 1) (upd I (Z mod p2 32)%N a) = firstn I a ++ [(Z mod p2 32)%N]) by (apply firstn_upd_last; lia).
    constructor; cbn [w_arr w_idx w_buf w_bits].
    + rewrite upd_length. auto.
    + lia.
    + lia.
    + apply N.div_lt_upper_bound; [apply p2_nz|]. rewrite <- p2_add. replace (32 + (B + len - 32)) with (B + len) by lia. auto.
    + lia.
    + rewrite FU. apply w32_app; auto. constructor; [apply N.mod_lt, p2_nz|constructor].
    + rewrite FU, HV', wval_app, firstn_length, Nat.min_l by lia. cbn [wval].
      replace (32 * (I + 1)) with (32 * I + 32) by lia. rewrite p2_add.
      rewrite (N.div_mod Z (p2 32) (p2_nz 32)) at 1. lia.
  - eexists. split; [reflexivity|]. constructor; cbn [w_arr w_idx w_buf w_bits]; auto; lia.
Qed.

Lemma emit_rel cap w V L c len : wrel cap w V L -> (c < p2 len)%N -> len <= 32 -> L + len <= 32 * cap ->
  exists w', emit w c len = Ok w' /\ wrel cap w' (V + p2 L * c)%N (L + len).
Proof.
  intros W Hc Hl Hcap. unfold emit. destruct W as [Hcp HL Hb Hf Hi H32 HV].
  assert (E : N.lor (w_buf w) (u64 (N.shiftl c (N.of_nat (w_bits w)))) = (w_buf w + p2 (w_bits w) * c)%N).
  { rewrite u64_small. apply lor_add; auto. rewrite shiftl_p2. pose proof (add_p2_lt _ _ _ _ Hf Hc) as Q.
    pose proof (p2_le (w_bits w + len) 64 ltac:(lia)). lia. }
  rewrite E. apply flush_rel; auto. constructor; auto.
Qed.
Lemma skip_rel cap w V L len : wrel cap w V L -> len <= 32 -> L + len <= 32 * cap ->
  exists w', skip w len = Ok w' /\ wrel cap w' V (L + len).
Proof.
  intros W Hl Hcap. unfold skip. destruct (flush_rel cap w V L 0 len W) as (w' & E & R); auto using p2_pos.
  rewrite N.mul_0_r, !N.add_0_r in *. eauto.
Qed.

Lemma write_unary_rel cap fuel : forall w V L v, wrel cap w V L -> v <= fuel -> L + (v + 1) <= 32 * cap ->
  exists w', write_unary fuel w v = Ok w' /\ wrel cap w' (V + p2 L * p2 v)%N (L + (v + 1)).
Proof.
  induction fuel as [|f IH]; intros w V L v W Hv Hcap; cbn [write_unary]; destruct (Nat.leb_spec 16 v) as [G|G]; try lia.
  - destruct (emit_rel cap w V L (p2 v) (1 + v) W) as (w' & E & R); try lia.
    { change (1 + v) with (S v). rewrite p2_1. pose proof (p2_pos v). lia. }
    rewrite shiftl_p2, N.mul_1_r, u64_small. 2: { pose proof (p2_le (S v) 64 ltac:(lia)) as Q1. pose proof (p2_pos v). rewrite p2_1 in Q1. lia. }
    rewrite Nat.add_comm with (n := v). eauto.
  - destruct (skip_rel cap w V L 16 W) as (w1 & E1 & R1); try lia. rewrite E1. cbn [bindr].
    destruct (IH w1 V (L + 16) (v - 16) R1) as (w2 & E2 & R2); try lia. exists w2. split; auto.
    replace (L + (v + 1)) with (L + 16 + (v - 16 + 1)) by lia. replace (p2 L * p2 v)%N with (p2 (L + 16) * p2 (v - 16))%N; auto.
    rewrite <- !p2_add. f_equal. lia.
  - destruct (emit_rel cap w V L (p2 v) (1 + v) W) as (w' & E & R); try lia.
    { change (1 + v) with (S v). rewrite p2_1. pose proof (p2_pos v). lia. }
    rewrite shiftl_p2, N.mul_1_r, u64_small. 2: { pose proof (p2_le (S v) 64 ltac:(lia)) as Q1. pose proof (p2_pos v). rewrite p2_1 in Q1. lia. }
    rewrite Nat.add_comm with (n := v). eauto.
Qed.

Lemma finish_rel cap w V L pad : wrel cap w V L -> pad <= 32 -> L + pad <= 32 * cap ->
  exists arr W, finish w pad = Ok (arr, W) /\ length arr = cap /\ W <= cap /\ w32 (firstn W arr) /\ wval (firstn W arr) = V /\
    L + pad <= 32 * W /\ 32 * W < L + pad + 32.
Proof.
  intros R Hp Hcap. unfold finish. destruct (skip_rel cap w V L pad R Hp Hcap) as (w1 & E & [Hc HL Hb Hf Hi H32 HV]).
  rewrite E. cbn [bindr]. destruct (Nat.ltb_spec 0 (w_bits w1)) as [G|G].
  - rewrite wr_ok by lia. cbn [of_opt bindr]. eexists _, _. split; [reflexivity|]. rewrite upd_length, firstn_upd_last by lia.
    rewrite land32. assert (Q : (w_buf w1 mod p2 32 = w_buf w1)%N).
    { apply N.mod_small. pose proof (p2_le (w_bits w1) 32 ltac:(lia)). lia. }
    rewrite Q. repeat split; auto; try lia.
    + apply w32_app; auto. constructor; auto. rewrite <- Q. apply N.mod_lt, p2_nz.
    + rewrite wval_app, firstn_length, Nat.min_l by lia. cbn [wval]. lia.
  - assert (w_bits w1 = 0) as Z by lia. rewrite Z in Hf. assert (w_buf w1 = 0)%N as Z2 by (change (p2 0) with 1%N in Hf; lia).
    eexists _, _. split; [reflexivity|]. repeat split; auto; try lia. 
Qed.

(** ** The reader *)
Record rrel (words : list N) (r : br) (P : nat) : Prop := {
  rr_pos : P + r_bits r = 32 * r_idx r;
  rr_idx : r_idx r <= length words;
  rr_buf : r_buf r = ((wval words / p2 P) mod p2 (r_bits r))%N }.

Lemma refill_rel words r P need : w32 words -> rrel words r P -> need <= 32 -> P + need <= 32 * length words ->
  exists r', refill words need r = Ok r' /\ rrel words r' P /\ need <= r_bits r'.
Proof.
  intros H32 [Hp Hi Hb] Hn Hl. unfold refill. destruct (Nat.ltb_spec (r_bits r) need) as [G|G].
  - destruct (nth_error words (r_idx r)) as [x|] eqn:E; [|apply nth_error_None in E; lia].
    eexists. split; [reflexivity|]. split; [|cbn [r_bits]; lia].
    assert (Hx : (x < p2 32)%N). { apply nth_error_In in E. unfold w32 in H32. rewrite Forall_forall in H32. auto. }
    assert (Hf : (r_buf r < p2 (r_bits r))%N) by (rewrite Hb; apply N.mod_lt, p2_nz).
    rewrite land32, N.mod_small by auto.
    rewrite u64_small. 2: { rewrite shiftl_p2. pose proof (add_p2_lt _ _ _ _ Hf Hx). pose proof (p2_le (r_bits r + 32) 64 ltac:(lia)). lia. }
    rewrite lor_add by auto. constructor; cbn [r_idx r_bits r_buf]; [lia| |].
    { assert (r_idx r < length words) by (apply nth_error_Some; congruence). lia. }
    rewrite mod_p2_split, <- Hb. f_equal. f_equal. rewrite <- div_p2, Hp. symmetry. apply wval_word; auto.
  - exists r. repeat split; auto.
Qed.
Lemma drop_rel words r P n : rrel words r P -> n <= r_bits r -> rrel words (drop n r) (P + n).
Proof.
  intros [Hp Hi Hb] Hn. constructor; cbn [drop r_idx r_bits r_buf]; [lia|auto|].
  rewrite shiftr_p2, Hb. replace (r_bits r) with (n + (r_bits r - n)) at 1 by lia. rewrite mod_div_p2, div_p2. auto.
Qed.
Lemma peek_rel words r P m : rrel words r P -> m <= r_bits r -> N.land (r_buf r) (p2 m - 1) = ((wval words / p2 P) mod p2 m)%N.
Proof. intros [Hp Hi Hb] Hm. rewrite land_p2, Hb. apply mod_mod_p2. auto. Qed.

Lemma ctz_from_exact fuel : forall i x c, i <= c < i + fuel -> (forall j, i <= j < c -> N.testbit x (N.of_nat j) = false) ->
  N.testbit x (N.of_nat c) = true -> ctz_from fuel i x = c.
Proof.
  induction fuel as [|f IH]; intros i x c Hc Hl Ht; [lia|]. cbn [ctz_from].
  destruct (Nat.eq_dec i c) as [->|Hne]; [rewrite Ht; auto|].
  rewrite Hl by lia. apply IH; auto; try lia. intros; apply Hl; lia.
Qed.
Lemma ctz_from_none fuel : forall i x, (forall j, i <= j < i + fuel -> N.testbit x (N.of_nat j) = false) -> ctz_from fuel i x = i + fuel.
Proof.
  induction fuel as [|f IH]; intros i x H; cbn [ctz_from]; [lia|]. rewrite H by lia. rewrite IH; [lia|]. intros; apply H; lia.
Qed.
Lemma unary_bit hi rest c : c < hi -> N.testbit (p2 hi + p2 (hi + 1) * rest) (N.of_nat c) = false.
Proof.
  intros H. rewrite p2_add. replace (p2 hi + p2 hi * p2 1 * rest)%N with ((1 + 2 * rest) * 2 ^ N.of_nat hi)%N.
  apply N.mul_pow2_bits_low. lia. change (p2 1) with 2%N. unfold p2. lia.
Qed.
Lemma unary_bit_at hi rest : N.testbit (p2 hi + p2 (hi + 1) * rest) (N.of_nat hi) = true.
Proof.
  rewrite p2_add. replace (p2 hi + p2 hi * p2 1 * rest)%N with ((1 + 2 * rest) * 2 ^ N.of_nat hi)%N.
  rewrite N.mul_pow2_bits_high, N.sub_diag by lia. rewrite N.add_comm. apply N.testbit_odd_0. change (p2 1) with 2%N. unfold p2. lia.
Qed.
Lemma land_255_bit x c : c < 8 -> N.testbit (N.land x 255) (N.of_nat c) = N.testbit x (N.of_nat c).
Proof.
  intros H. rewrite N.land_spec. change 255%N with (N.ones 8). rewrite ones_testbit. replace (N.of_nat c <? 8)%N with true by lia. apply andb_true_r.
Qed.

Lemma read_unary_rel words : w32 words -> forall fuel sub r P hi rest, rrel words r P -> hi <= 8 * fuel + 7 ->
  (wval words / p2 P = p2 hi + p2 (hi + 1) * rest)%N -> P + hi + 8 <= 32 * length words ->
  exists r', read_unary fuel words sub r = Ok (sub + hi, r') /\ rrel words r' (P + (hi + 1)).
Proof.
  intros H32. induction fuel as [|f IH]; intros sub r P hi rest R Hf HV Hl; cbn [read_unary];
    (destruct (refill_rel words r P 8 H32 R) as (r1 & E1 & R1 & B1); [lia|lia|]); rewrite E1; cbn [bindr];
    change 255%N with (p2 8 - 1)%N; rewrite (peek_rel words r1 P 8 R1 B1).
  - assert (C : ctz_from 8 0 ((wval words / p2 P) mod p2 8)%N = hi).
    { rewrite <- (land_p2 _ 8), HV. change (p2 8 - 1)%N with 255%N. apply ctz_from_exact; [lia| |].
      - intros j Hj. rewrite land_255_bit by lia. apply unary_bit. lia.
      - rewrite land_255_bit by lia. apply unary_bit_at. }
    rewrite C. destruct (Nat.eqb_spec hi 8); [lia|]. eexists. split; [reflexivity|]. rewrite Nat.add_comm with (n := hi).
    apply drop_rel; auto. lia.
  - destruct (Nat.le_gt_cases 8 hi) as [G|G].
    + assert (C : ctz_from 8 0 ((wval words / p2 P) mod p2 8)%N = 8).
      { rewrite <- (land_p2 _ 8), HV. change (p2 8 - 1)%N with 255%N. apply (ctz_from_none 8 0). intros j Hj.
        rewrite land_255_bit by lia. apply unary_bit. lia. }
      rewrite C. cbn [Nat.eqb]. destruct (IH (sub + 8) (drop 8 r1) (P + 8) (hi - 8) rest) as (r' & E & R').
      * apply drop_rel; auto.
      * lia.
      * rewrite div_p2, HV. replace (hi + 1) with (8 + (hi - 8 + 1)) by lia. replace hi with (8 + (hi - 8)) at 1 by lia.
        rewrite !(p2_add 8). rewrite <- N.mul_assoc, <- N.mul_add_distr_l, N.mul_comm. apply N.div_mul, p2_nz.
      * lia.
      * exists r'. split; [rewrite E; do 2 f_equal; lia|]. replace (P + (hi + 1)) with (P + 8 + (hi - 8 + 1)) by lia. auto.
    + assert (C : ctz_from 8 0 ((wval words / p2 P) mod p2 8)%N = hi).
      { rewrite <- (land_p2 _ 8), HV. change (p2 8 - 1)%N with 255%N. apply ctz_from_exact; [lia| |].
        - intros j Hj. rewrite land_255_bit by lia. apply unary_bit. lia.
        - rewrite land_255_bit by lia. apply unary_bit_at. }
      rewrite C. destruct (Nat.eqb_spec hi 8); [lia|]. eexists. split; [reflexivity|]. rewrite Nat.add_comm with (n := hi).
      apply drop_rel; auto. lia.
Qed.
