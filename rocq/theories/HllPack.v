(** * Lemmas about the packed arrays (4-bit, 6-bit) and the auxiliary hash map of HLL_4. *)
From Verif Require Import Base ProbeModel ProbeProofs Bytes Arr HllModel.
Local Open Scope nat_scope.

Definition bytes_ok (b : list N) : Prop := Forall (fun x => (x < 256)%N) b.

Lemma bytes_ok_upd b i x : bytes_ok b -> (x < 256)%N -> bytes_ok (upd i x b).
Proof.
  unfold bytes_ok. rewrite !Forall_forall. intros H Hx y Hy. apply In_nth_error in Hy. destruct Hy as [j Hj].
  rewrite nth_error_upd in Hj. destruct (i =? j); [destruct (i <? length b); congruence|]. apply H. eapply nth_error_In; eauto.
Qed.
Lemma bytes_ok_nth b i x : bytes_ok b -> nth_error b i = Some x -> (x < 256)%N.
Proof. unfold bytes_ok. rewrite Forall_forall. intros H E. apply H. eapply nth_error_In; eauto. Qed.
Lemma wr_ok {A} i (x : A) l : i < length l -> wr i x l = Some (upd i x l).
Proof. intros H. unfold wr. destruct (Nat.ltb_spec i (length l)); auto; lia. Qed.

Lemma N_lt_in_seq (x : N) n : (x < N.of_nat n)%N -> In x (map N.of_nat (seq 0 n)).
Proof. intros H. apply in_map_iff. exists (N.to_nat x). split; [apply N2Nat.id|]. apply in_seq. lia. Qed.

(** ** Nibbles *)
Definition nib_check : bool :=
  forallb (fun x => forallb (fun v =>
     let e := N.lor (N.land x 240) (N.land v 15) in
     let o := N.lor (N.land x 15) (N.land (N.shiftl v 4) 240) in
     (e <? 256)%N && (o <? 256)%N &&
     (N.land e 15 =? v)%N && (N.land (N.shiftr e 4) 15 =? N.land (N.shiftr x 4) 15)%N &&
     (N.land o 15 =? N.land x 15)%N && (N.land (N.shiftr o 4) 15 =? v)%N) (map N.of_nat (seq 0 16))) (map N.of_nat (seq 0 256)).
Lemma nib_check_ok : nib_check = true. Proof. vm_compute. reflexivity. Qed.
Lemma nib_facts x v : (x < 256)%N -> (v < 16)%N ->
  let e := N.lor (N.land x 240) (N.land v 15) in
  let o := N.lor (N.land x 15) (N.land (N.shiftl v 4) 240) in
  (e < 256)%N /\ (o < 256)%N /\ N.land e 15 = v /\ N.land (N.shiftr e 4) 15 = N.land (N.shiftr x 4) 15 /\
  N.land o 15 = N.land x 15 /\ N.land (N.shiftr o 4) 15 = v.
Proof.
  intros Hx Hv. pose proof nib_check_ok as H. unfold nib_check in H. rewrite forallb_forall in H.
  specialize (H x (N_lt_in_seq x 256 Hx)). rewrite forallb_forall in H. specialize (H v (N_lt_in_seq v 16 Hv)).
  cbv zeta in *. rewrite !andb_true_iff in H. rewrite !N.eqb_eq, !N.ltb_lt in H. tauto.
Qed.

Lemma div2_cases s t : s / 2 = t / 2 -> s <> t -> Nat.odd s <> Nat.odd t.
Proof.
  intros H Hn E. apply Hn. rewrite (Nat.div_mod s 2), (Nat.div_mod t 2) by lia. rewrite H. f_equal.
  pose proof (Nat.bit0_mod s) as A. pose proof (Nat.bit0_mod t) as B. rewrite Nat.bit0_odd in A, B. rewrite E in A. lia.
Qed.

Lemma put_nibble_spec b slot v : bytes_ok b -> slot / 2 < length b -> (v < 16)%N ->
  exists b', put_nibble b slot v = Some b' /\ length b' = length b /\ bytes_ok b' /\
    forall s, get_nibble b' s = if s =? slot then Some v else get_nibble b s.
Proof.
  intros Hb Hs Hv. unfold put_nibble. destruct (nth_error b (slot / 2)) as [x|] eqn:Ex.
  2:{ apply nth_error_None in Ex. lia. }
  assert (Hx := bytes_ok_nth _ _ _ Hb Ex). pose proof (nib_facts x v Hx Hv) as F. cbv zeta in F.
  destruct F as (F1 & F2 & F3 & F4 & F5 & F6).
  cbn [bindo]. rewrite wr_ok by auto. eexists. split; [reflexivity|]. split; [apply upd_length|]. split.
  { apply bytes_ok_upd; auto. destruct (Nat.odd slot); auto. }
  intros s. unfold get_nibble. rewrite nth_error_upd. destruct (Nat.eqb_spec s slot) as [->|Hne].
  - rewrite Nat.eqb_refl. destruct (Nat.ltb_spec (slot / 2) (length b)); [|lia]. cbn [bindo].
    destruct (Nat.odd slot); f_equal; auto.
  - destruct (Nat.eqb_spec (slot / 2) (s / 2)) as [E|E]; auto. rewrite <- E, Ex.
    destruct (Nat.ltb_spec (slot / 2) (length b)); [|lia]. cbn [bindo].
    pose proof (div2_cases slot s E (fun q => Hne (eq_sym q))) as Ho.
    destruct (Nat.odd slot), (Nat.odd s); try congruence; f_equal; auto.
Qed.

Lemma get_nibble_some b slot : slot / 2 < length b -> exists v, get_nibble b slot = Some v.
Proof.
  intros H. unfold get_nibble. destruct (nth_error b (slot / 2)) as [x|] eqn:E; [cbn; eauto|]. apply nth_error_None in E. lia.
Qed.
Lemma get_nibble_lt b slot v : get_nibble b slot = Some v -> (v < 16)%N.
Proof.
  unfold get_nibble. destruct (nth_error b (slot / 2)) as [x|]; cbn [bindo]; intros H; inversion H; subst.
  change 15%N with (N.ones 4). rewrite N.land_ones. apply N.mod_lt. discriminate.
Qed.

(** ** Six-bit fields *)
(** Bit k of a byte array (bit k mod 8 of byte k / 8). *)
Definition abit (b : list N) (k : nat) : bool :=
  match nth_error b (k / 8) with Some x => N.testbit x (N.of_nat (k mod 8)) | None => false end.

Lemma testbit_small x n k : (x < 2 ^ n)%N -> (n <= k)%N -> N.testbit x k = false.
Proof.
  intros H Hk. destruct (N.eq_dec x 0) as [->|Hz]; [apply N.bits_0|].
  apply N.bits_above_log2. apply N.log2_lt_pow2; [lia|]. eapply N.lt_le_trans; [exact H|]. apply N.pow_le_mono_r; lia.
Qed.
Lemma short_bit x y k : (x < 256)%N ->
  N.testbit (N.lor x (N.shiftl y 8)) k = if (k <? 8)%N then N.testbit x k else N.testbit y (k - 8).
Proof.
  intros Hx. rewrite N.lor_spec. destruct (N.ltb_spec k 8).
  - rewrite N.shiftl_spec_low by auto. apply orb_false_r.
  - rewrite N.shiftl_spec_high' by auto. rewrite (testbit_small x 8 k) by auto. auto.
Qed.
Lemma land63_bit x k : N.testbit (N.land x 63) k = N.testbit x k && (k <? 6)%N.
Proof.
  change 63%N with (N.ones 6). rewrite N.land_spec. f_equal. destruct (N.ltb_spec k 6).
  - apply N.ones_spec_low; auto.
  - apply N.ones_spec_high; auto.
Qed.
Lemma mod256_bit x k : N.testbit (x mod 256) k = N.testbit x k && (k <? 8)%N.
Proof.
  change 256%N with (2 ^ 8)%N. destruct (N.ltb_spec k 8).
  - rewrite N.mod_pow2_bits_low by auto. rewrite andb_true_r. auto.
  - rewrite N.mod_pow2_bits_high by auto. rewrite andb_false_r. auto.
Qed.

Lemma get6_bits b slot : bytes_ok b -> slot * 6 / 8 + 1 < length b ->
  exists v, get6 b slot = Some v /\ (v < 64)%N /\
    forall j, j < 6 -> N.testbit v (N.of_nat j) = abit b (slot * 6 + j).
Proof.
  intros Hb Hl. unfold get6, get_short. set (off := slot * 6 / 8) in *. set (sh := slot * 6 mod 8) in *.
  assert (Hsh : sh < 8) by (apply Nat.mod_upper_bound; lia).
  assert (E : slot * 6 = 8 * off + sh) by (apply Nat.div_mod; lia).
  destruct (nth_error b off) as [x|] eqn:Ex; [|apply nth_error_None in Ex; lia].
  destruct (nth_error b (off + 1)) as [y|] eqn:Ey; [|apply nth_error_None in Ey; lia].
  cbn [bindo]. eexists. split; [reflexivity|]. split.
  { change 63%N with (N.ones 6). rewrite N.land_ones. apply N.mod_lt. discriminate. }
  intros j Hj. rewrite land63_bit, N.shiftr_spec', short_bit by (eapply bytes_ok_nth; eauto).
  destruct (N.ltb_spec (N.of_nat j) 6); [|lia]. rewrite andb_true_r. unfold abit. rewrite E.
  destruct (N.ltb_spec (N.of_nat j + N.of_nat sh) 8).
  - replace ((8 * off + sh + j) / 8) with off by lia. rewrite Ex. f_equal. lia.
  - replace ((8 * off + sh + j) / 8) with (off + 1) by lia. rewrite Ey. f_equal. lia.
Qed.

Lemma bits_eq_6 v w : (v < 64)%N -> (w < 64)%N -> (forall j, j < 6 -> N.testbit v (N.of_nat j) = N.testbit w (N.of_nat j)) -> v = w.
Proof.
  intros Hv Hw H. apply N.bits_inj. intros k. destruct (N.lt_ge_cases k 6).
  - rewrite <- (N2Nat.id k). apply H. lia.
  - rewrite !(testbit_small _ 6 k); auto.
Qed.

Lemma put6_bits b slot v : bytes_ok b -> slot * 6 / 8 + 1 < length b ->
  exists b', put6 b slot v = Some b' /\ length b' = length b /\ bytes_ok b' /\
    forall k, abit b' k = if (slot * 6 <=? k) && (k <? slot * 6 + 6) then N.testbit v (N.of_nat (k - slot * 6)) else abit b k.
Proof.
  intros Hb Hl. unfold put6. set (off := slot * 6 / 8) in *. set (sh := slot * 6 mod 8) in *. cbv zeta.
  assert (Hsh : sh < 8) by (apply Nat.mod_upper_bound; lia).
  assert (E : slot * 6 = 8 * off + sh) by (apply Nat.div_mod; lia).
  unfold get_short.
  destruct (nth_error b off) as [x|] eqn:Ex; [|apply nth_error_None in Ex; lia].
  destruct (nth_error b (off + 1)) as [y|] eqn:Ey; [|apply nth_error_None in Ey; lia].
  cbn [bindo]. set (w := N.lor _ _). unfold put_short. rewrite wr_ok by lia. cbn [bindo]. rewrite wr_ok by (rewrite upd_length; lia).
  eexists. split; [reflexivity|]. split; [rewrite !upd_length; auto|]. split.
  { apply bytes_ok_upd; [apply bytes_ok_upd; auto|]; apply N.mod_lt; discriminate. }
  assert (Hw : forall k, N.testbit w k = if (N.of_nat sh <=? k)%N && (k <? N.of_nat sh + 6)%N then N.testbit v (k - N.of_nat sh)
                                  else if (k <? 8)%N then N.testbit x k else N.testbit y (k - 8)).
  { intros k. unfold w. rewrite N.lor_spec, N.ldiff_spec, short_bit by (eapply bytes_ok_nth; eauto).
    destruct (N.leb_spec (N.of_nat sh) k).
    - rewrite !N.shiftl_spec_high' by auto. rewrite land63_bit.
      assert (H63 : N.testbit 63 (k - N.of_nat sh) = (k - N.of_nat sh <? 6)%N).
      { change 63%N with (N.ones 6). destruct (N.ltb_spec (k - N.of_nat sh) 6); [apply N.ones_spec_low|apply N.ones_spec_high]; auto. }
      rewrite H63. destruct (N.ltb_spec (k - N.of_nat sh) 6), (N.ltb_spec k (N.of_nat sh + 6)); try lia.
      + cbn [negb andb]. rewrite andb_false_r, andb_true_r. auto.
      + cbn [negb andb]. rewrite andb_true_r, andb_false_r, orb_false_r. auto.
    - rewrite !N.shiftl_spec_low by auto. cbn [negb andb]. rewrite andb_true_r, orb_false_r. auto. }
  clearbody w. intros k. unfold abit at 1. rewrite !nth_error_upd, upd_length.
  assert (Hk : k = 8 * (k / 8) + k mod 8) by (apply Nat.div_mod; lia).
  assert (Hk8 : k mod 8 < 8) by (apply Nat.mod_upper_bound; lia).
  destruct (Nat.eqb_spec (off + 1) (k / 8)) as [E1|N1].
  - destruct (Nat.ltb_spec (off + 1) (length b)); [|lia].
    rewrite mod256_bit, N.shiftr_spec', Hw. destruct (N.ltb_spec (N.of_nat (k mod 8)) 8); [|lia]. rewrite andb_true_r.
    destruct (Nat.leb_spec (slot * 6) k), (Nat.ltb_spec k (slot * 6 + 6)), (N.leb_spec (N.of_nat sh) (N.of_nat (k mod 8) + 8)),
      (N.ltb_spec (N.of_nat (k mod 8) + 8) (N.of_nat sh + 6)); cbn [andb]; try lia.
    + f_equal. lia.
    + destruct (N.ltb_spec (N.of_nat (k mod 8) + 8) 8); [lia|]. unfold abit. rewrite <- E1, Ey. f_equal. lia.
  - destruct (Nat.eqb_spec off (k / 8)) as [E2|N2].
    + destruct (Nat.ltb_spec off (length b)); [|lia].
      rewrite mod256_bit, Hw. destruct (N.ltb_spec (N.of_nat (k mod 8)) 8); [|lia]. rewrite andb_true_r.
      destruct (Nat.leb_spec (slot * 6) k), (Nat.ltb_spec k (slot * 6 + 6)), (N.leb_spec (N.of_nat sh) (N.of_nat (k mod 8))),
        (N.ltb_spec (N.of_nat (k mod 8)) (N.of_nat sh + 6)); cbn [andb]; try lia.
      * f_equal. lia.
      * unfold abit. rewrite <- E2, Ex. auto.
      * unfold abit. rewrite <- E2, Ex. auto.
    + destruct (Nat.leb_spec (slot * 6) k), (Nat.ltb_spec k (slot * 6 + 6)); cbn [andb]; auto. lia.
Qed.

Lemma put6_spec b slot v : bytes_ok b -> slot * 6 / 8 + 1 < length b -> (v < 64)%N ->
  exists b', put6 b slot v = Some b' /\ length b' = length b /\ bytes_ok b' /\
    forall s, s * 6 / 8 + 1 < length b -> get6 b' s = if s =? slot then Some v else get6 b s.
Proof.
  intros Hb Hl Hv. destruct (put6_bits b slot v Hb Hl) as (b' & E & Hlen & Hb' & Hbits).
  exists b'. split; auto. split; auto. split; auto. intros s Hs.
  destruct (get6_bits b' s Hb' ltac:(lia)) as (u & Eu & Hu & Hu').
  destruct (get6_bits b s Hb Hs) as (u0 & Eu0 & Hu0 & Hu0').
  rewrite Eu, Eu0. destruct (Nat.eqb_spec s slot) as [->|Hne]; f_equal.
  - apply bits_eq_6; auto. intros j Hj. rewrite Hu' by auto. rewrite Hbits.
    destruct (Nat.leb_spec (slot * 6) (slot * 6 + j)), (Nat.ltb_spec (slot * 6 + j) (slot * 6 + 6)); cbn [andb]; try lia. f_equal. lia.
  - apply bits_eq_6; auto. intros j Hj. rewrite Hu', Hu0' by auto. rewrite Hbits.
    destruct (Nat.leb_spec (slot * 6) (s * 6 + j)), (Nat.ltb_spec (s * 6 + j) (slot * 6 + 6)); cbn [andb]; auto; lia.
Qed.

(** ** Pairs *)
Lemma pair_value_mk s v : pair_value (mk_pair s v) = v.
Proof.
  unfold pair_value, mk_pair. rewrite N.div_add_l by discriminate. rewrite N.div_small; [lia|]. apply N.mod_lt. discriminate.
Qed.
Lemma pair_low_mk s v : (N.of_nat s < 2 ^ 26)%N -> pair_low (mk_pair s v) = N.of_nat s.
Proof.
  intros H. unfold pair_low, mk_pair. rewrite N.add_comm, N.mod_add by discriminate. rewrite N.mod_mod by discriminate.
  apply N.mod_small; auto.
Qed.
Lemma mk_pair_pos s v : (0 < v)%N -> mk_pair s v <> 0%N.
Proof. unfold mk_pair. intros H E. assert (2 ^ 26 = 67108864)%N by reflexivity. lia. Qed.

Lemma pow_succ_nat n : N.to_nat (2 ^ (n + 1)) = 2 * N.to_nat (2 ^ n).
Proof. rewrite N.add_1_r, N.pow_succ_r'. lia. Qed.
Lemma pow_lt_26 lgK s : (lgK <= 26)%N -> (N.of_nat s < 2 ^ lgK)%N -> (N.of_nat s < 2 ^ 26)%N.
Proof. intros H Hs. eapply N.lt_le_trans; [exact Hs|]. apply N.pow_le_mono_r; [discriminate|auto]. Qed.

Lemma mk_pair_slot lgK s v : (lgK <= 26)%N -> (N.of_nat s < 2 ^ lgK)%N -> (mk_pair s v mod 2 ^ lgK)%N = N.of_nat s.
Proof.
  intros H Hs. unfold mk_pair. rewrite (N.mod_small (N.of_nat s)) by (eapply pow_lt_26; eauto).
  replace 26%N with (26 - lgK + lgK)%N by lia. rewrite N.pow_add_r. rewrite N.mul_assoc, N.add_comm, N.mod_add by (apply N.pow_nonzero; lia).
  apply N.mod_small. auto.
Qed.

(** ** The probe loop depends only on the answers of its test *)
Lemma probe_loop_ext {A} (t : list A) f g m st : (forall a, f a = g a) ->
  forall fuel i s, probe_loop fuel t f m st i s = probe_loop fuel t g m st i s.
Proof.
  intros H. induction fuel; intros; cbn [probe_loop]; auto. destruct (nth_error t (N.to_nat i)); auto. rewrite H.
  destruct (g a); auto. destruct (N.land (i + st) m =? s)%N; auto.
Qed.
Lemma lor1_odd x : N.odd (N.lor x 1) = true.
Proof. rewrite <- N.bit0_odd, N.lor_spec. cbn. apply orb_true_r. Qed.

(** ** The auxiliary map *)
Section Aux.
  Variable lgK : N.
  Hypothesis HlgK : (4 <= lgK <= 21)%N.

  Definition akey (a : N) : option N := if (a =? 0)%N then None else Some (a mod 2 ^ lgK)%N.
  Definition astart (lg : N) (k : N) : N := N.land k (2 ^ lg - 1).
  Definition astride (lg : N) (k : N) : N := N.lor (N.shiftr k lg) 1.
  Lemma astart_lt lg k : (astart lg k < 2 ^ lg)%N.
  Proof. unfold astart. rewrite land_mask_mod. apply N.mod_lt. apply N.pow_nonzero. lia. Qed.
  Lemma astride_odd lg k : N.odd (astride lg k) = true.
  Proof. apply lor1_odd. Qed.

  Definition atable (lg : N) (arr : list N) : Prop := table_ok akey lg (astart lg) (astride lg) arr.
  Definition acontents (arr : list N) : list N := contents akey arr.

  Lemma find_aux_eq arr lg slot : (lg < lgK)%N ->
    find_aux arr lg lgK slot =
    match probe_loop (N.to_nat (2 ^ lg)) arr (ktest akey slot) (2 ^ lg - 1) (astride lg slot) (astart lg slot) (astart lg slot) with
    | PFound i => Some (inl i) | PEmpty i => Some (inr i) | _ => None end.
  Proof.
    intros H. unfold find_aux. destruct (N.leb_spec lgK lg); [lia|]. fold (astart lg slot) (astride lg slot).
    rewrite (probe_loop_ext arr (aux_test lgK slot) (ktest akey slot)); auto.
    intros a. unfold aux_test, ktest, akey. destruct (a =? 0)%N; auto. rewrite land_mask_mod, N.eqb_sym. auto.
  Qed.

  Lemma find_aux_spec arr lg slot : (lg < lgK)%N -> atable lg arr -> length (acontents arr) < N.to_nat (2 ^ lg) ->
    (exists i a, find_aux arr lg lgK slot = Some (inl i) /\ nth_error arr i = Some a /\ akey a = Some slot) \/
    (exists i, find_aux arr lg lgK slot = Some (inr i) /\ nth_error arr i = Some 0%N /\
       (forall a, In a arr -> akey a <> Some slot) /\
       (forall x, akey x = Some slot -> atable lg (upd i x arr))).
  Proof.
    intros Hlg Ht Hc. rewrite find_aux_eq by auto.
    assert (Hfree := free_slot akey lg arr (proj1 Ht) Hc).
    destruct (probe_loop_spec akey lg (astart lg) (astride lg) (astride_odd lg) (astart_lt lg) arr slot (N.to_nat (2 ^ lg)) Ht Hfree (le_n _))
      as [(s & a & E & Ha & Hk)|(s & a & j1 & E & Ha & Hk & Hj & Hs & Hocc & Hno)]; rewrite E.
    - left. eauto.
    - right. exists s. split; auto. split.
      { unfold akey in Hk. destruct (N.eqb_spec a 0); [subst; auto|discriminate]. }
      split; auto. intros x Hx. eapply insert_ok; eauto.
  Qed.

  Lemma akey_pair s v : (N.of_nat s < 2 ^ lgK)%N -> (0 < v)%N -> akey (mk_pair s v) = Some (N.of_nat s).
  Proof.
    intros Hs Hv. unfold akey. pose proof (mk_pair_pos s v Hv). destruct (N.eqb_spec (mk_pair s v) 0); [congruence|].
    rewrite mk_pair_slot by (auto; lia). auto.
  Qed.

  (** The map: slot s is bound to v. *)
  Definition has (arr : list N) (s : nat) (v : N) : Prop := (0 < v)%N /\ (N.of_nat s < 2 ^ lgK)%N /\ In (mk_pair s v) arr.
  Definition wf_aux (x : auxmap) : Prop :=
    (2 <= x_lg x < lgK)%N /\ atable (x_lg x) (x_arr x) /\ x_cnt x = length (acontents (x_arr x)) /\
    4 * x_cnt x <= 3 * N.to_nat (2 ^ x_lg x) /\
    (forall p, In p (x_arr x) -> p <> 0%N -> exists s v, p = mk_pair s v /\ (N.of_nat s < 2 ^ lgK)%N /\ (0 < v)%N).

  Lemma wf_room x : wf_aux x -> length (acontents (x_arr x)) < N.to_nat (2 ^ x_lg x).
  Proof. intros (H1 & H2 & H3 & H4 & H5). rewrite <- H3. pose proof (pow2_pos_N (x_lg x)). lia. Qed.

  Lemma mk_pair_inj s v s' v' : (N.of_nat s < 2 ^ lgK)%N -> (N.of_nat s' < 2 ^ lgK)%N -> mk_pair s v = mk_pair s' v' -> s = s' /\ v = v'.
  Proof.
    intros H H' E. pose proof (f_equal pair_value E) as E1. rewrite !pair_value_mk in E1.
    pose proof (f_equal (fun p => p mod 2 ^ lgK)%N E) as E2. cbv beta in E2. rewrite !mk_pair_slot in E2 by (auto; lia). split; auto. lia.
  Qed.

  Lemma has_fun x s v w : wf_aux x -> has (x_arr x) s v -> has (x_arr x) s w -> v = w.
  Proof.
    intros (_ & (_ & _ & Hu) & _) (Hv & Hs & H1) (Hw & _ & H2).
    apply In_nth_error in H1. destruct H1 as [i Hi]. apply In_nth_error in H2. destruct H2 as [j Hj].
    assert (i = j) by (eapply (Hu i j); eauto; apply akey_pair; auto). subst. rewrite Hi in Hj. inversion Hj as [E].
    apply mk_pair_inj in E; tauto.
  Qed.

  Lemma aux_new_wf : exists x, new_aux lgK = Some x /\ wf_aux x /\ x_cnt x = 0 /\ (x_lg x + 2 <= lgK)%N /\ (forall s v, ~ has (x_arr x) s v).
  Proof.
    unfold new_aux.
    assert (H : exists l, nth_error lg_aux_ints (N.to_nat lgK) = Some l /\ (2 <= l)%N /\ (l + 2 <= lgK)%N).
    { assert (Hin : In lgK (map N.of_nat (seq 4 18))).
      { apply in_map_iff. exists (N.to_nat lgK). split; [lia|]. apply in_seq. lia. }
      revert Hin. cbv [map seq N.of_nat Pos.of_succ_nat Pos.succ In]. intros Hin.
      repeat (destruct Hin as [<-|Hin]; [eexists; split; [reflexivity|split; lia]|]). contradiction. }
    destruct H as (l & E & H1 & H2). rewrite E. cbn [bindo]. eexists. split; [reflexivity|].
    assert (Hk0 : akey 0 = None) by reflexivity.
    unfold aux_new. cbn [x_lg x_cnt x_arr]. split; [|split; [auto|split; [lia|]]].
    - split; [cbn [x_lg]; lia|]. cbn [x_lg x_cnt x_arr]. split.
      { apply table_ok_free. auto. }
      split; [unfold acontents; rewrite contents_free by auto; auto|]. split; [lia|].
      intros p Hp Hne. apply repeat_spec in Hp. congruence.
    - intros s v (H3 & H4 & H5). apply repeat_spec in H5. apply (mk_pair_pos s v); auto.
  Qed.

  Lemma aux_find_spec x s v : wf_aux x -> has (x_arr x) s v -> aux_find x lgK s = Some v.
  Proof.
    intros W H. pose proof W as (H1 & H2 & H3 & H4 & H5). pose proof H as (Hv & Hs & Hin).
    unfold aux_find. destruct (find_aux_spec (x_arr x) (x_lg x) (N.of_nat s)) as [(i & a & E & Ha & Hk)|(i & E & Ha & Hno & _)]; auto; try lia.
    - rewrite E. cbn [bindo]. rewrite Ha. cbn [bindo].
      destruct (N.eq_dec a 0) as [->|Ha0]; [discriminate|].
      destruct (H5 a) as (s' & v' & -> & Hs' & Hv'); [eapply nth_error_In; eauto|auto|].
      rewrite akey_pair in Hk by auto. inversion Hk. assert (s' = s) by lia. subst s'.
      rewrite pair_value_mk. f_equal. apply (has_fun x s); auto. split; [auto|split; [auto|]]. eapply nth_error_In; eauto.
    - exfalso. apply (Hno (mk_pair s v)); auto. apply akey_pair; auto.
  Qed.

  Lemma aux_replace_spec x s old v : wf_aux x -> has (x_arr x) s old -> (0 < v)%N ->
    exists x', aux_replace x lgK s v = Some x' /\ wf_aux x' /\ x_cnt x' = x_cnt x /\
      forall s' w, has (x_arr x') s' w <-> (s' = s /\ w = v) \/ (s' <> s /\ has (x_arr x) s' w).
  Proof.
    intros W H Hv. pose proof W as (H1 & H2 & H3 & H4 & H5). pose proof H as (Ho & Hs & Hin).
    unfold aux_replace. destruct (find_aux_spec (x_arr x) (x_lg x) (N.of_nat s)) as [(i & a & E & Ha & Hk)|(i & E & Ha & Hno & _)]; auto; try lia.
    - rewrite E. cbn [bindo]. eexists. split; [reflexivity|].
      assert (Hil : i < length (x_arr x)) by (eapply nth_error_Some_lt; eauto).
      assert (Hocc : forall p, akey p <> None -> isocc akey p = true) by (intros p Hp; unfold isocc, isfree; destruct (akey p); [reflexivity|congruence]).
      assert (Hkn : akey (mk_pair s v) = Some (N.of_nat s)) by (apply akey_pair; auto).
      split; [|split; [auto|]].
      + split; [auto|]. cbn [x_lg x_arr x_cnt]. split; [eapply replace_ok; eauto; congruence|].
        destruct (contents_replace akey (x_arr x) i a (mk_pair s v)) as (r & P1 & P2); auto; try (apply Hocc; congruence).
        split; [rewrite H3; unfold acontents; rewrite P1, P2; auto|]. split; auto.
        intros p Hp Hne. apply In_nth_error in Hp. destruct Hp as [j Hj]. rewrite nth_error_upd in Hj.
        destruct (i =? j). { destruct (i <? length (x_arr x)); inversion Hj; subst. eauto. }
        apply H5; auto. eapply nth_error_In; eauto.
      + cbn [x_arr]. intros s' w. split.
        * intros (Hw & Hs' & Hp). apply In_nth_error in Hp. destruct Hp as [j Hj]. rewrite nth_error_upd in Hj.
          destruct (Nat.eqb_spec i j) as [Eij|Hne].
          { destruct (Nat.ltb_spec i (length (x_arr x))); [|discriminate]. inversion Hj as [E']. apply mk_pair_inj in E'; auto. left. intuition congruence. }
          right. split; [|split; [auto|split; [auto|eapply nth_error_In; eauto]]].
          intros ->. apply Hne. destruct H2 as (_ & _ & Hu). eapply (Hu i j); eauto. apply akey_pair; auto.
        * intros [[-> ->]|[Hne (Hw & Hs' & Hp)]].
          { split; [auto|split; [auto|]]. eapply nth_error_In. apply nth_error_upd_eq. auto. }
          split; [auto|split; [auto|]]. apply In_nth_error in Hp. destruct Hp as [j Hj]. eapply nth_error_In.
          rewrite nth_error_upd_neq; eauto. intros ->. rewrite Ha in Hj. inversion Hj; subst a.
          rewrite akey_pair in Hk by auto. inversion Hk. lia.
    - exfalso. apply (Hno (mk_pair s old)); auto. apply akey_pair; auto.
  Qed.

  (** Reinsertion into a larger table. *)
  Lemma aux_reinsert_spec lg : (lg < lgK)%N -> forall old arr,
    (forall p, In p old -> p <> 0%N -> exists s v, p = mk_pair s v /\ (N.of_nat s < 2 ^ lgK)%N /\ (0 < v)%N) ->
    NoDup (map akey (contents akey old)) ->
    (forall p q, In p old -> p <> 0%N -> In q arr -> q <> 0%N -> akey p <> akey q) ->
    atable lg arr -> length (contents akey old) + length (contents akey arr) < N.to_nat (2 ^ lg) ->
    exists arr', aux_reinsert old arr lg lgK = Some arr' /\ atable lg arr' /\
      Permutation (contents akey arr') (contents akey old ++ contents akey arr).
  Proof.
    intros Hlg. induction old as [|p old IH]; intros arr Hold Hnd Hdis Ht Hroom; cbn [aux_reinsert].
    - exists arr. auto.
    - assert (Ez : isocc akey p = negb (p =? 0)%N) by (unfold isocc, isfree, akey; destruct (p =? 0)%N; auto).
      unfold contents in Hnd, Hroom |- *. cbn [filter] in Hnd, Hroom |- *. rewrite Ez in *. fold (contents akey old) in *. fold (contents akey arr) in *.
      destruct (N.eqb_spec p 0) as [Ep|Hp0]; cbn [negb] in *.
      + apply IH; auto; intros; [apply Hold|apply Hdis]; auto; right; auto.
      + destruct (Hold p (or_introl eq_refl) Hp0) as (s & v & Epv & Hs & Hv).
        assert (Hkp : akey p = Some (N.of_nat s)) by (rewrite Epv; apply akey_pair; auto).
        cbn [map length] in Hnd, Hroom.
        rewrite land_mask_mod. replace (p mod 2 ^ lgK)%N with (N.of_nat s) by (rewrite Epv, mk_pair_slot; auto; lia).
        destruct (find_aux_spec arr lg (N.of_nat s) Hlg Ht) as [(i & a & E & Ha & Hk)|(i & E & Ha & Hno & Hins)]; [unfold acontents; lia| |].
        { exfalso. apply (Hdis p a); auto; [left; auto|eapply nth_error_In; eauto|intros ->; discriminate|congruence]. }
        rewrite E. cbn [bindo].
        assert (Pi : Permutation (contents akey (upd i p arr)) (p :: contents akey arr)).
        { apply (contents_insert akey arr i 0%N); [auto|reflexivity|]. rewrite Ez. destruct (N.eqb_spec p 0); [contradiction|reflexivity]. }
        destruct (IH (upd i p arr)) as (arr' & E' & Ht' & P').
        * intros; apply Hold; auto. right; auto.
        * inversion Hnd; auto.
        * intros q r Hq Hq0 Hr Hr0. apply In_nth_error in Hr. destruct Hr as [j Hj]. rewrite nth_error_upd in Hj.
          destruct (i =? j). { destruct (i <? length arr); inversion Hj; subst r. intros Ek. inversion Hnd as [|? ? Hn _]; subst.
            apply Hn. rewrite <- Ek. apply in_map. apply contents_In. split; auto. unfold akey. destruct (N.eqb_spec q 0); [congruence|eauto]. }
          apply Hdis; auto; [right; auto|eapply nth_error_In; eauto].
        * apply Hins; auto.
        * rewrite Pi. cbn [length]. lia.
        * exists arr'. split; auto. split; auto. rewrite P', Pi. cbn [app]. symmetry. apply Permutation_middle.
  Qed.

  Lemma has_contents arr s v : has arr s v <-> (0 < v)%N /\ (N.of_nat s < 2 ^ lgK)%N /\ In (mk_pair s v) (contents akey arr).
  Proof.
    unfold has. split; intros (H1 & H2 & H3); (split; [auto|split; [auto|]]).
    - apply contents_In. split; auto. rewrite akey_pair; eauto.
    - apply contents_In in H3. tauto.
  Qed.


  (** mustAdd: it succeeds exactly when at most 3/8 of the slots are exceptions. *)
  Lemma aux_add_spec x s v : wf_aux x -> (N.of_nat s < 2 ^ lgK)%N -> (0 < v)%N -> (forall w, ~ has (x_arr x) s w) ->
    (8 * (x_cnt x + 1) <= 3 * N.to_nat (2 ^ lgK) ->
      exists x', aux_add x lgK s v = Some x' /\ wf_aux x' /\ x_cnt x' = x_cnt x + 1 /\
        (forall s' w, has (x_arr x') s' w <-> (s' = s /\ w = v) \/ has (x_arr x) s' w)) /\
    (3 * N.to_nat (2 ^ lgK) < 8 * (x_cnt x + 1) -> aux_add x lgK s v = None).
  Proof.
    intros W Hs Hv Hnh. pose proof W as (H1 & H2 & H3 & H4 & H5). pose proof (wf_room x W) as Hroom.
    assert (Hkn : akey (mk_pair s v) = Some (N.of_nat s)) by (apply akey_pair; auto).
    unfold aux_add. destruct (find_aux_spec (x_arr x) (x_lg x) (N.of_nat s)) as [(i & a & E & Ha & Hk)|(i & E & Ha & Hno & Hins)]; auto; try lia.
    { exfalso. destruct (N.eq_dec a 0) as [->|Ha0]; [discriminate|].
      destruct (H5 a) as (s' & v' & -> & Hs' & Hv'); [eapply nth_error_In; eauto|auto|].
      rewrite akey_pair in Hk by auto. inversion Hk. assert (s' = s) by lia. subst s'. apply (Hnh v').
      split; [auto|split; [auto|eapply nth_error_In; eauto]]. }
    rewrite E. cbn [bindo]. specialize (Hins (mk_pair s v) Hkn).
    assert (Hocc : isocc akey (mk_pair s v) = true) by (unfold isocc, isfree; rewrite Hkn; auto).
    assert (Pi := contents_insert akey (x_arr x) i 0%N (mk_pair s v) Ha eq_refl Hocc).
    set (arr := upd i (mk_pair s v) (x_arr x)) in *.
    assert (Hlen : length arr = N.to_nat (2 ^ x_lg x)) by (apply (proj1 Hins)).
    assert (Hcnt : length (contents akey arr) = x_cnt x + 1) by (rewrite Pi; cbn [length]; unfold acontents in H3; lia).
    assert (Hpairs : forall p, In p arr -> p <> 0%N -> exists s v, p = mk_pair s v /\ (N.of_nat s < 2 ^ lgK)%N /\ (0 < v)%N).
    { intros p Hp Hne. apply In_nth_error in Hp. destruct Hp as [j Hj]. unfold arr in Hj. rewrite nth_error_upd in Hj.
      destruct (i =? j). { destruct (i <? length (x_arr x)); inversion Hj; subst. eauto. }
      apply H5; auto. eapply nth_error_In; eauto. }
    assert (Hhas : forall s' w, has arr s' w <-> (s' = s /\ w = v) \/ has (x_arr x) s' w).
    { intros s' w. rewrite !has_contents. split.
      - intros (Hw & Hs' & Hin). apply (Permutation_in _ Pi) in Hin. destruct Hin as [Ein|Hin]; [|auto].
        apply mk_pair_inj in Ein; auto. left. intuition congruence.
      - intros [[-> ->]|(Hw & Hs' & Hin)]; (split; [auto|split; [auto|]]); apply (Permutation_in _ (Permutation_sym Pi)); [left|right]; auto. }
    assert (Hpow : forall n, (n < lgK)%N -> 2 * N.to_nat (2 ^ n) <= N.to_nat (2 ^ lgK)).
    { intros n Hn. rewrite <- pow_succ_nat. assert (2 ^ (n + 1) <= 2 ^ lgK)%N by (apply N.pow_le_mono_r; lia). lia. }
    rewrite Hlen. cbv zeta. split.
    - intros Hcap. destruct (Nat.leb_spec (4 * (x_cnt x + 1)) (3 * N.to_nat (2 ^ x_lg x))) as [Hle|Hgt].
      + eexists. split; [reflexivity|]. split; [|split; [auto|exact Hhas]].
        split; [auto|]. cbn [x_lg x_arr x_cnt]. split; [auto|]. split; [unfold acontents; auto|]. split; auto.
      + assert (Hlg1 : (x_lg x + 1 < lgK)%N).
        { destruct (N.lt_ge_cases (x_lg x + 1) lgK); auto. assert (Elg : lgK = (x_lg x + 1)%N) by lia.
          rewrite Elg, pow_succ_nat in Hcap. lia. }
        destruct (aux_reinsert_spec (x_lg x + 1) Hlg1 arr (repeat 0%N (N.to_nat (2 ^ (x_lg x + 1))))) as (arr' & E' & Ht' & P').
        * auto.
        * apply uniq_NoDup. apply Hins.
        * intros p q Hp Hp0 Hq Hq0. apply repeat_spec in Hq. congruence.
        * apply table_ok_free. reflexivity.
        * rewrite contents_free by reflexivity. cbn [length]. rewrite pow_succ_nat, Hcnt. pose proof (pow2_pos_N (x_lg x)). lia.
        * rewrite E'. cbn [bindo]. rewrite contents_free in P' by reflexivity. rewrite app_nil_r in P'.
          eexists. split; [reflexivity|]. split; [|split; [auto|]].
          -- split; [cbn [x_lg]; lia|]. cbn [x_lg x_arr x_cnt]. split; [auto|]. split; [unfold acontents; rewrite P'; auto|]. split.
             { rewrite pow_succ_nat. pose proof (pow2_pos_N (x_lg x)). lia. }
             intros p Hp Hne. apply Hpairs; auto.
             assert (Hin : In p (contents akey arr')). { apply contents_In. split; auto. unfold akey. destruct (N.eqb_spec p 0); [congruence|eauto]. }
             apply (Permutation_in _ P') in Hin. apply contents_In in Hin. tauto.
          -- cbn [x_arr]. intros s' w. rewrite <- Hhas, !has_contents. split; intros (A & B & C); (split; [auto|split; [auto|]]);
             [apply (Permutation_in _ P')|apply (Permutation_in _ (Permutation_sym P'))]; auto.
    - intros Hcap. destruct (Nat.leb_spec (4 * (x_cnt x + 1)) (3 * N.to_nat (2 ^ x_lg x))) as [Hle|Hgt].
      { exfalso. specialize (Hpow (x_lg x)). lia. }
      assert (Elg : lgK = (x_lg x + 1)%N).
      { destruct (N.lt_ge_cases (x_lg x + 1) lgK); [|lia]. exfalso.
        pose proof (Hpow (x_lg x + 1)%N ltac:(lia)) as Hp. rewrite pow_succ_nat in Hp.
        assert (4 <= N.to_nat (2 ^ x_lg x)). { assert (2 ^ 2 <= 2 ^ x_lg x)%N by (apply N.pow_le_mono_r; lia). lia. }
        lia. }
      clear -Elg Hcnt Hins Hlen Hs. rewrite <- Elg.
      assert (Hne : contents akey arr <> []) by (intros E; rewrite E in Hcnt; cbn in Hcnt; lia).
      clear Hcnt Hins Hlen. clearbody arr. generalize (repeat 0%N (N.to_nat (2 ^ lgK))). intros new.
      replace (aux_reinsert arr new lgK lgK) with (@None (list N)); auto. symmetry. revert Hne. induction arr as [|p arr IH]; intros Hne; [exfalso; apply Hne; reflexivity|].
      cbn [aux_reinsert]. unfold contents in Hne. cbn [filter] in Hne. unfold isocc at 1, isfree, akey in Hne.
      destruct (N.eqb_spec p 0); cbn [negb] in Hne; [apply IH; auto|].
      unfold find_aux. destruct (N.leb_spec lgK lgK); [auto|lia].
  Qed.
End Aux.
