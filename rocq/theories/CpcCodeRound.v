(** * Round trips of lowLevelCompressPairs / lowLevelUncompressPairs and of the byte coder. *)
From Verif Require Import Base Bytes Arr BitPackModel BitPackProofs CpcTable CpcTableProofs CpcModel CpcProofs CpcTables CpcCodeModel CpcCode CpcCodeTab.
From Coq Require Import Sorted.
Local Open Scope nat_scope.
Local Opaque make_decoding_table unary_enc.

Definition rowN (rc : N) : N := N.shiftr rc 6.
Definition colN (rc : N) : N := N.land rc 63.
Lemma rowN_div rc : rowN rc = (rc / 64)%N. Proof. unfold rowN. rewrite N.shiftr_div_pow2. reflexivity. Qed.
Lemma colN_mod rc : colN rc = (rc mod 64)%N. Proof. unfold colN. change 63%N with (p2 6 - 1)%N. rewrite land_p2. reflexivity. Qed.
Lemma colN_lt rc : (colN rc < 64)%N. Proof. rewrite colN_mod. apply N.mod_lt. lia. Qed.
Lemma join_rc rc : N.lor (N.shiftl (rowN rc) 6) (colN rc) = rc.
Proof.
  rewrite N.lor_comm. change (N.shiftl (rowN rc) 6) with (N.shiftl (rowN rc) (N.of_nat 6)). rewrite lor_add by apply colN_lt.
  rewrite rowN_div, colN_mod. change (p2 6) with 64%N. pose proof (N.div_mod rc 64 ltac:(lia)). lia.
Qed.

Definition next_col (prow pcol rc : N) : N := if (rowN rc =? prow)%N then pcol else 0%N.
Definition step_ok (prow pcol rc : N) : bool := negb ((rowN rc <? prow)%N || (colN rc <? next_col prow pcol rc)%N).
Fixpoint asc (ps : list N) (prow pcol : N) : bool :=
  match ps with [] => true | rc :: r => step_ok prow pcol rc && asc r (rowN rc) (colN rc + 1) end.

Definition hiN (b : nat) (y : N) : nat := N.to_nat (y / p2 b).
(** The bits written for the pairs, up to the first one out of order. *)
Fixpoint pchunks (ps : list N) (b : nat) (prow pcol : N) : list (N * nat) :=
  match ps with
  | [] => []
  | rc :: rest =>
      if step_ok prow pcol rc then
        let y := (rowN rc - prow)%N in
        let e := nth (N.to_nat (colN rc - next_col prow pcol rc)) unary_enc 0%N in
        (code_of e, len_of e) :: (p2 (hiN b y), hiN b y + 1) :: ((y mod p2 b)%N, b) :: pchunks rest b (rowN rc) (colN rc + 1)
      else []
  end.

Lemma unary_entry x : (x < 64)%N -> exists e, nth_error unary_enc (N.to_nat x) = Some e /\ nth (N.to_nat x) unary_enc 0%N = e /\
  1 <= len_of e <= 12 /\ (code_of e < p2 (len_of e))%N.
Proof.
  intros H. destruct (good_get 65 unary_enc (N.to_nat x) unary_good) as [e E]; [lia|]. exists e. split; auto.
  split; [apply nth_error_nth; auto|]. eapply good_entry; eauto. apply unary_good.
Qed.

Lemma compress_loop_rel cap b ps : b <= 32 -> forall prow pcol w V L, wrel cap w V L -> 
  L + slen (pchunks ps b prow pcol) <= 32 * cap ->
  if asc ps prow pcol then exists w', compress_pairs_loop ps b prow pcol w = Ok w' /\
    wrel cap w' (V + p2 L * sval (pchunks ps b prow pcol))%N (L + slen (pchunks ps b prow pcol))
  else compress_pairs_loop ps b prow pcol w = Err.
Proof.
  intros Hb. induction ps as [|rc ps IH]; intros prow pcol w V L W Hc.
  - cbn [asc compress_pairs_loop pchunks slen sval]. rewrite N.mul_0_r, N.add_0_r, Nat.add_0_r. eauto.
  - cbn [asc pchunks] in *. cbn [compress_pairs_loop]. fold (rowN rc) (colN rc). fold (next_col prow pcol rc).
    unfold step_ok in *. destruct ((rowN rc <? prow)%N || (colN rc <? next_col prow pcol rc)%N) eqn:Ev; cbn [negb andb] in *; auto.
    assert (Hx : (colN rc - next_col prow pcol rc < 64)%N) by (clear; pose proof (colN_lt rc); lia).
    destruct (unary_entry _ Hx) as (e & Ee & En & El & Ec). rewrite En in *. rewrite Ee. cbn [of_opt bindr].
    fold (code_of e) (len_of e). set (y := (rowN rc - prow)%N) in *. rewrite !slen_cons, !sval_cons in *.
    destruct (emit_rel cap w V L (code_of e) (len_of e) W Ec) as (w1 & E1 & R1); [lia|lia|]. rewrite E1. cbn [bindr].
    rewrite shiftr_p2. fold (hiN b y).
    destruct (write_unary_rel cap (hiN b y) w1 _ _ (hiN b y) R1) as (w2 & E2 & R2); [lia|lia|]. rewrite E2. cbn [bindr].
    rewrite land_shl1. destruct (emit_rel cap w2 _ _ (y mod p2 b) b R2) as (w3 & E3 & R3); [apply N.mod_lt, p2_nz|lia|lia|]. rewrite E3. cbn [bindr].
    specialize (IH (rowN rc) (colN rc + 1)%N w3 _ _ R3). cbv beta in IH.
    destruct (asc ps (rowN rc) (colN rc + 1)).
    + destruct IH as (w' & E & R); [lia|]. exists w'. split; auto.
      match goal with |- wrel _ _ ?v ?l => match type of R with wrel _ _ ?v' ?l' => replace v with v'; [replace l with l'; auto|] end end.
      * lia.
      * rewrite !p2_add. ring.
    + apply IH. lia.
Qed.

(** The number of bits. *)
Lemma pchunks_len ps b k : (forall rc, In rc ps -> (rowN rc < k)%N) -> forall prow pcol, (prow <= k - 1)%N ->
  slen (pchunks ps b prow pcol) <= length ps * (12 + 1 + b) + N.to_nat ((k - 1 - prow) / p2 b).
Proof.
  intros Hk. induction ps as [|rc ps IH]; intros prow pcol Hp; cbn [pchunks]; [apply Nat.le_0_l|].
  destruct (step_ok prow pcol rc) eqn:Ev; [|apply Nat.le_0_l].
  assert (Hx : (colN rc - next_col prow pcol rc < 64)%N) by (clear; pose proof (colN_lt rc); lia).
  destruct (unary_entry _ Hx) as (e & Ee & En & El & Ec). rewrite En. rewrite !slen_cons. cbn [length].
  specialize (IH (fun r H => Hk r (or_intror H)) (rowN rc) (colN rc + 1)%N). specialize (Hk rc (or_introl eq_refl)).
  assert (Hr : (prow <= rowN rc)%N) by (unfold step_ok in Ev; lia).
  unfold hiN. set (y := (rowN rc - prow)%N).
  assert (y / p2 b + (k - 1 - rowN rc) / p2 b <= (k - 1 - prow) / p2 b)%N.
  { replace (k - 1 - prow)%N with (y + (k - 1 - rowN rc))%N by lia. apply N.div_le_lower_bound; [apply p2_nz|].
    pose proof (N.mul_div_le y (p2 b) (p2_nz b)). pose proof (N.mul_div_le (k - 1 - rowN rc) (p2 b) (p2_nz b)). nia. }
  revert H IH. generalize (y / p2 b)%N, ((k - 1 - rowN rc) / p2 b)%N, ((k - 1 - prow) / p2 b)%N. intros A B C H IH. specialize (IH ltac:(lia)). nia.
Qed.

Lemma uncompress_loop_rel words b dec pad : w32 words -> b <= 32 -> 10 - b <= pad -> make_decoding_table unary_enc 65 = Ok dec ->
  forall ps prow pcol r P, asc ps prow pcol = true -> (forall rc, In rc ps -> (rc < p2 32)%N) ->
    rrel words r P -> (wval words / p2 P = sval (pchunks ps b prow pcol))%N -> P + slen (pchunks ps b prow pcol) + pad <= 32 * length words ->
    exists r', uncompress_pairs_loop (length ps) b dec words prow pcol r = Ok (ps, r') /\ r_idx r' <= length words.
Proof.
  intros H32 Hb Hpad Hd. induction ps as [|rc ps IH]; intros prow pcol r P Ha Hlt R HV Hl.
  - cbn [length uncompress_pairs_loop]. exists r. split; auto. apply (rr_idx _ _ _ R).
  - cbn [asc] in Ha. apply andb_prop in Ha. destruct Ha as [Hs Ha]. cbn [pchunks] in HV, Hl. rewrite Hs in HV, Hl.
    assert (Hx : (colN rc - next_col prow pcol rc < 64)%N) by (clear; pose proof (colN_lt rc); lia).
    destruct (unary_entry _ Hx) as (e & Ee & En & El & Ec). rewrite En in *. set (y := (rowN rc - prow)%N) in *.
    rewrite !sval_cons in HV. rewrite !slen_cons in Hl. cbn [length uncompress_pairs_loop].
    set (tl := pchunks ps b (rowN rc) (colN rc + 1)) in *. assert (H256 : 65 <= 256) by (clear; lia).
    assert (HB : P + 12 <= 32 * length words /\ hiN b y <= 8 * (4 * length words + 5) + 7 /\ P + len_of e + hiN b y + 8 <= 32 * length words /\
      P + len_of e + (hiN b y + 1) + b <= 32 * length words /\ P + len_of e + (hiN b y + 1) + b + slen tl + pad <= 32 * length words) by (clear - Hl El Hpad; lia).
    destruct HB as (HB1 & HB2 & HB3 & HB4 & HB5).
    destruct (decode_symbol 65 unary_enc dec words r P _ e _ unary_good H256 Hd H32 R Ee HV HB1) as (r1 & E1 & E2 & R1 & S1 & V1).
    rewrite E1. cbn [bindr]. rewrite E2. cbn [of_opt bindr]. rewrite dec_entry_len, dec_entry_sym by auto.
    destruct (read_unary_rel words H32 (4 * length words + 5) 0 (drop (len_of e) r1) _ (hiN b y) _ R1 HB2 V1 HB3) as (r2 & E3 & R2).
    rewrite E3. cbn [bindr plus].
    destruct (refill_rel words r2 _ b H32 R2 Hb HB4) as (r3 & E4 & R3 & B3). rewrite E4. cbn [bindr].
    assert (V2 : (wval words / p2 (P + len_of e + (hiN b y + 1)) = (y mod p2 b) + p2 b * sval tl)%N).
    { rewrite div_p2, V1. apply add_p2_div. rewrite Nat.add_comm. change (1 + hiN b y) with (S (hiN b y)). rewrite p2_1.
      pose proof (p2_pos (hiN b y)) as Q. clear - Q. lia. }
    assert (Hm : (y mod p2 b < p2 b)%N) by (apply N.mod_lt, p2_nz).
    rewrite shiftl_p2 with (b := 1%N), N.mul_1_r. rewrite (peek_rel words r3 _ b R3 B3), V2, add_p2_mod by auto.
    assert (Hrc := Hlt rc (or_introl eq_refl)).
    assert (Hy : (y < p2 32)%N). { clear - Hrc. subst y. rewrite rowN_div. pose proof (N.div_le_upper_bound rc 64 (p2 32)). lia. }
    assert (Ydef : (p2 b * N.of_nat (hiN b y) + y mod p2 b = y)%N).
    { unfold hiN. rewrite N2Nat.id. symmetry. apply N.div_mod, p2_nz. }
    assert (Yeq : N.lor (u64 (N.shiftl (N.of_nat (hiN b y)) (N.of_nat b))) (y mod p2 b) = y).
    { rewrite u64_small. 2: { rewrite shiftl_p2. assert (32 <= 64) as Q by (clear; lia). apply p2_le in Q. clear - Q Ydef Hy. revert Ydef. generalize (y mod p2 b)%N, (p2 b * N.of_nat (hiN b y))%N. intros; lia. }
      rewrite N.lor_comm, lor_add by auto. rewrite N.add_comm. auto. }
    rewrite Yeq. unfold step_ok in Hs. apply negb_true_iff, orb_false_iff in Hs. destruct Hs as [Hs1 Hs2].
    assert (Rw : (prow + y = rowN rc)%N) by (clear - Hs1 y; lia). rewrite Rw.
    assert (Pc : (if (0 <? y)%N then 0%N else pcol) = next_col prow pcol rc).
    { unfold next_col. clear - Hs1 y. destruct (N.ltb_spec 0 y), (N.eqb_spec (rowN rc) prow); auto; subst y; lia. }
    rewrite Pc, N2Nat.id. replace (next_col prow pcol rc + (colN rc - next_col prow pcol rc))%N with (colN rc) by (clear - Hs2; lia).
    destruct (IH (rowN rc) (colN rc + 1)%N (drop b r3) (P + len_of e + (hiN b y + 1) + b)) as (r' & E5 & I5); auto.
    + intros q Hq. apply Hlt. right; auto.
    + apply drop_rel; auto.
    + rewrite div_p2, V2. apply add_p2_div; auto.
    + rewrite E5. cbn [bindr]. rewrite join_rc. eauto.
Qed.

(** Compression of a list of pairs fails exactly when the list is not ascending, and is inverted by
    decompression. *)
Lemma pairs_round ps b k cap : b <= 32 -> (forall rc, In rc ps -> (rowN rc < k)%N /\ (rc < p2 32)%N) -> (0 < k)%N ->
  length ps * (12 + 1 + b) + N.to_nat (k / p2 b) + (10 - b) <= 32 * cap ->
  if asc ps 0 0 then
    exists arr W, compress_pairs ps b (repeat 0%N cap) = Ok (arr, W) /\ length arr = cap /\ W <= cap /\ w32 (firstn W arr) /\
      (ps <> [] -> 0 < W) /\ uncompress_pairs (length ps) b (firstn W arr) W = Ok ps
  else compress_pairs ps b (repeat 0%N cap) = Err.
Proof.
  intros Hb Hps Hk Hcap.
  pose proof (pchunks_len ps b k (fun rc H => proj1 (Hps rc H)) 0 0 ltac:(lia)) as HL.
  assert (HL2 : slen (pchunks ps b 0 0) + (10 - b) <= 32 * cap).
  { assert ((k - 1 - 0) / p2 b <= k / p2 b)%N as Q by (apply N.div_le_mono; [apply p2_nz|lia]).
    revert Q HL Hcap. generalize ((k - 1 - 0) / p2 b)%N, (k / p2 b)%N. intros; lia. }
  clear HL Hcap.
  assert (W0 : wrel cap (mkBw (repeat 0%N cap) 0 0 0) 0 0).
  { constructor; cbn [w_arr w_idx w_buf w_bits]; try apply repeat_length; try reflexivity; try lia; constructor. }
  pose proof (compress_loop_rel cap b ps Hb 0 0 _ _ _ W0 ltac:(lia)) as C. unfold compress_pairs.
  destruct (asc ps 0 0) eqn:Ha.
  - destruct C as (w & E & R). rewrite E. cbn [bindr]. change (p2 0) with 1%N in R. rewrite N.mul_1_l in R. cbn [plus N.add] in R.
    destruct (finish_rel cap w _ _ (10 - b) R ltac:(lia) ltac:(lia)) as (arr & W & EF & LA & LW & W32 & VW & B1 & B2).
    exists arr, W. split; auto. split; auto. split; auto. split; auto. split.
    { intros Hne. destruct ps as [|rc r]; [congruence|]. cbn [asc pchunks] in *. apply andb_prop in Ha. destruct Ha as [Hs _]. rewrite Hs in *.
      rewrite !slen_cons in *. lia. }
    unfold uncompress_pairs. destruct (decoding_table_ok 65 unary_enc unary_good) as (dec & Ed & _). unfold unary_dec. rewrite Ed. cbn [bindr].
    assert (LF : length (firstn W arr) = W) by (rewrite firstn_length; lia).
    destruct (uncompress_loop_rel (firstn W arr) b dec (10 - b) W32 Hb ltac:(lia) Ed ps 0 0 (mkBr 0 0 0) 0 Ha) as (r' & EU & IU).
    + intros rc H. apply Hps; auto.
    + constructor; cbn [r_bits r_idx r_buf]; [reflexivity|apply Nat.le_0_l|change (p2 0) with 1%N; rewrite N.mod_1_r; auto].
    + change (p2 0) with 1%N. rewrite N.div_1_r. auto.
    + rewrite LF. lia.
    + rewrite EU. cbn [bindr]. destruct (Nat.ltb_spec W (r_idx r')); [lia|]. auto.
  - rewrite C. auto.
Qed.

(** [asc] is strict sortedness. *)
Lemma asc_cons_lt x y : step_ok (rowN x) (colN x + 1) y = (x <? y)%N.
Proof.
  unfold step_ok, next_col. rewrite !rowN_div, !colN_mod.
  pose proof (N.div_mod x 64 ltac:(lia)). pose proof (N.div_mod y 64 ltac:(lia)).
  pose proof (N.mod_lt x 64 ltac:(lia)). pose proof (N.mod_lt y 64 ltac:(lia)).
  apply eq_true_iff_eq. rewrite negb_true_iff, orb_false_iff, N.ltb_ge, N.ltb_ge, N.ltb_lt.
  set (qx := (x / 64)%N) in *. set (qy := (y / 64)%N) in *. set (rx := (x mod 64)%N) in *. set (ry := (y mod 64)%N) in *.
  destruct (N.eqb_spec qy qx); lia.
Qed.
Lemma asc_sorted_from l : forall x, asc l (rowN x) (colN x + 1) = true <-> Sorted N.lt (x :: l).
Proof.
  induction l as [|y l IH]; intros x; cbn [asc].
  - split; auto.
  - rewrite andb_true_iff, IH, asc_cons_lt, N.ltb_lt. split.
    + intros [H1 H2]. constructor; auto.
    + intros H. inversion H as [|? ? H1 H2]; subst. inversion H2; subst. auto.
Qed.
Lemma asc_sorted l : asc l 0 0 = true <-> Sorted N.lt l.
Proof.
  destruct l as [|x l]; cbn [asc]; [split; auto|]. rewrite <- asc_sorted_from.
  assert (S0 : step_ok 0 0 x = true). { unfold step_ok, next_col. destruct (rowN x =? 0)%N; lia. }
  rewrite S0. cbn [andb]. tauto.
Qed.

(** ** Bytes *)
Fixpoint bchunks (enc bs : list N) : list (N * nat) :=
  match bs with [] => [] | x :: r => let e := nth (N.to_nat x) enc 0%N in (code_of e, len_of e) :: bchunks enc r end.
Lemma byte_entry enc x : good_code 256 enc = true -> (x < 256)%N -> exists e, nth_error enc (N.to_nat x) = Some e /\ nth (N.to_nat x) enc 0%N = e /\
  1 <= len_of e <= 12 /\ (code_of e < p2 (len_of e))%N.
Proof.
  intros G H. destruct (good_get 256 enc (N.to_nat x) G) as [e E]; [lia|]. exists e. split; auto.
  split; [apply nth_error_nth; auto|]. eapply good_entry; eauto.
Qed.
Lemma bchunks_len enc bs : good_code 256 enc = true -> Forall (fun x => (x < 256)%N) bs -> slen (bchunks enc bs) <= 12 * length bs.
Proof.
  intros G. induction 1 as [|x bs Hx Hbs IH]; cbn [bchunks]; [cbn; lia|].
  destruct (byte_entry enc x G Hx) as (e & _ & En & El & _). rewrite En, slen_cons. cbn [length]. lia.
Qed.
Lemma bytes_loop_rel cap enc bs : good_code 256 enc = true -> Forall (fun x => (x < 256)%N) bs -> forall w V L, wrel cap w V L ->
  L + slen (bchunks enc bs) <= 32 * cap ->
  exists w', compress_bytes_loop bs enc w = Ok w' /\ wrel cap w' (V + p2 L * sval (bchunks enc bs))%N (L + slen (bchunks enc bs)).
Proof.
  intros G. induction 1 as [|x bs Hx Hbs IH]; intros w V L W Hc; cbn [bchunks compress_bytes_loop] in *.
  - cbn [slen sval]. rewrite N.mul_0_r, N.add_0_r, Nat.add_0_r. eauto.
  - destruct (byte_entry enc x G Hx) as (e & Ee & En & El & Ec). rewrite En, ?slen_cons, ?sval_cons in *. rewrite Ee. cbn [of_opt bindr].
    fold (code_of e) (len_of e). destruct (emit_rel cap w V L (code_of e) (len_of e) W Ec) as (w1 & E1 & R1); [lia|lia|]. rewrite E1. cbn [bindr].
    destruct (IH w1 _ _ R1) as (w' & E & R); [lia|]. exists w'. split; auto.
    replace (V + p2 L * (code_of e + p2 (len_of e) * sval (bchunks enc bs)))%N with (V + p2 L * code_of e + p2 (L + len_of e) * sval (bchunks enc bs))%N by (rewrite p2_add; ring).
    rewrite Nat.add_assoc. auto.
Qed.
Lemma unbytes_loop_rel words enc dec bs pad : good_code 256 enc = true -> make_decoding_table enc 256 = Ok dec -> w32 words -> 11 <= pad ->
  Forall (fun x => (x < 256)%N) bs -> forall r P, rrel words r P -> (wval words / p2 P = sval (bchunks enc bs))%N ->
  P + slen (bchunks enc bs) + pad <= 32 * length words ->
  exists r', uncompress_bytes_loop (length bs) dec words r = Ok (bs, r') /\ r_idx r' <= length words.
Proof.
  intros G Hd H32 Hpad. induction 1 as [|x bs Hx Hbs IH]; intros r P R HV Hl; cbn [bchunks uncompress_bytes_loop length] in *.
  - exists r. split; auto. apply (rr_idx _ _ _ R).
  - destruct (byte_entry enc x G Hx) as (e & Ee & En & El & Ec). rewrite En, slen_cons in Hl. rewrite En, sval_cons in HV.
    destruct (decode_symbol 256 enc dec words r P _ e _ G ltac:(lia) Hd H32 R Ee HV ltac:(lia)) as (r1 & E1 & E2 & R1 & S1 & V1).
    rewrite E1. cbn [bindr]. rewrite E2. cbn [of_opt bindr]. rewrite dec_entry_len, dec_entry_sym by auto. rewrite N2Nat.id.
    destruct (IH _ _ R1 V1) as (r' & E & I); [lia|]. rewrite E. cbn [bindr]. eauto.
Qed.

Lemma bytes_round enc bs cap : good_code 256 enc = true -> Forall (fun x => (x < 256)%N) bs -> 12 * length bs + 11 <= 32 * cap ->
  exists dec arr W, make_decoding_table enc 256 = Ok dec /\ compress_bytes bs enc (repeat 0%N cap) = Ok (arr, W) /\ length arr = cap /\ W <= cap /\
    0 < W /\ w32 (firstn W arr) /\ uncompress_bytes (length bs) dec (firstn W arr) W = Ok bs.
Proof.
  intros G Hb Hc. pose proof (bchunks_len enc bs G Hb) as HL.
  destruct (decoding_table_ok 256 enc G) as (dec & Ed & _).
  assert (W0 : wrel cap (mkBw (repeat 0%N cap) 0 0 0) 0 0).
  { constructor; cbn [w_arr w_idx w_buf w_bits]; try apply repeat_length; try reflexivity; try lia; constructor. }
  destruct (bytes_loop_rel cap enc bs G Hb _ _ _ W0) as (w & E & R); [lia|]. change (p2 0) with 1%N in R. rewrite N.mul_1_l in R. cbn [plus N.add] in R.
  destruct (finish_rel cap w _ _ 11 R ltac:(lia) ltac:(lia)) as (arr & W & EF & LA & LW & W32 & VW & B1 & B2).
  exists dec, arr, W. split; auto. unfold compress_bytes. rewrite E. cbn [bindr]. split; auto. split; auto. split; auto. split; [lia|]. split; auto.
  unfold uncompress_bytes. assert (LF : length (firstn W arr) = W) by (rewrite firstn_length; lia).
  destruct (unbytes_loop_rel (firstn W arr) enc dec bs 11 G Ed W32 ltac:(lia) Hb (mkBr 0 0 0) 0) as (r' & EU & IU).
  + constructor; cbn [r_bits r_idx r_buf]; [reflexivity|apply Nat.le_0_l|change (p2 0) with 1%N; rewrite N.mod_1_r; auto].
  + change (p2 0) with 1%N. rewrite N.div_1_r. auto.
  + rewrite LF. lia.
  + rewrite EU. cbn [bindr]. destruct (Nat.ltb_spec W (r_idx r')); [lia|]. auto.
Qed.
