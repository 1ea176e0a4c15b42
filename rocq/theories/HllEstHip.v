(** * The HIP estimate in binary64: finite, never below the number of occupied slots, never decreasing *)
From Coq Require Import ZArith Reals Bool Psatz.
From Flocq Require Import Core Relative BinarySingleNaN.
From Verif Require Import Base Bytes Arr FloatModel FloatProofs ReqRankProofs HllModel HllPack HllArrProofs HllMode HllUnion HllEstTables HllEstModel HllEstProofs HllEstCoupon.
From Coq Require Import Rdefinitions.
Local Open Scope R_scope.

(** ** Sums over registers *)
Lemma sumf_bounds f r K lo hi : (forall i, (i < K)%nat -> (lo <= f (r i) <= hi)%Z) -> (Z.of_nat K * lo <= sumf f r K <= Z.of_nat K * hi)%Z.
Proof. induction K; intros H; cbn [sumf]; [lia|]. specialize (IHK ltac:(intros; apply H; lia)). specialize (H K ltac:(lia)). lia. Qed.
Lemma sumf_lin f g h r K c : (forall i, (i < K)%nat -> h (r i) = (f (r i) * c + g (r i))%Z) -> sumf h r K = (sumf f r K * c + sumf g r K)%Z.
Proof. induction K; intros H; cbn [sumf]; [lia|]. rewrite IHK by (intros; apply H; lia). rewrite (H K) by lia. ring. Qed.
Lemma sumf_const c r K : sumf (fun _ => c) r K = (Z.of_nat K * c)%Z.
Proof. induction K; cbn [sumf]; lia. Qed.
Definition weight (v : N) : Z := (inv0 v * 2 ^ 32 + inv1 v)%Z.
Lemma weight_pow v : (v < 64)%N -> weight v = (2 ^ (63 - Z.of_N v))%Z.
Proof.
  intros H. unfold weight, inv0, inv1. destruct (N.ltb_spec v 32); [|lia]. replace (63 - Z.of_N v)%Z with ((31 - Z.of_N v) + 32)%Z by lia. rewrite Z.pow_add_r by lia. lia.
Qed.
Lemma weight_bound v : (v < 64)%N -> (1 <= weight v <= 2 ^ 63)%Z.
Proof. intros H. rewrite weight_pow by auto. pose proof (Z.pow_pos_nonneg 2 (63 - Z.of_N v) ltac:(lia) ltac:(lia)). split; [lia|]. apply Z.pow_le_mono_r; lia. Qed.

Lemma nslots_bound lgK : (lgK <= 21)%N -> (1 <= Z.of_nat (nslots lgK) <= 2 ^ 21)%Z.
Proof.
  intros H. unfold nslots. rewrite N_nat_Z. pose proof (N.pow_le_mono_r 2 lgK 21 ltac:(lia) H). change (2 ^ 21)%N with 2097152%N in *. change (2 ^ 21)%Z with 2097152%Z.
  assert (2 ^ lgK <> 0)%N by (apply N.pow_nonzero; lia). lia.
Qed.
Definition low (r : nat -> N) (K : nat) : Prop := forall i, (i < K)%nat -> (r i < 64)%N.
Lemma kxq_bounds r K : low r K -> (1 <= Z.of_nat K <= 2 ^ 21)%Z ->
  (0 <= sumf inv0 r K <= 2 ^ 52)%Z /\ (0 <= sumf inv1 r K <= 2 ^ 52)%Z /\ (Z.of_nat K <= sumf weight r K <= Z.of_nat K * 2 ^ 63)%Z /\
  sumf weight r K = (sumf inv0 r K * 2 ^ 32 + sumf inv1 r K)%Z.
Proof.
  intros Hr HK. pose proof (sumf_bounds inv0 r K 0 (2 ^ 31) ltac:(intros; apply inv0_bound)) as A.
  pose proof (sumf_bounds inv1 r K 0 (2 ^ 31) ltac:(intros; apply inv1_bound, Hr; auto)) as B.
  pose proof (sumf_bounds weight r K 1 (2 ^ 63) ltac:(intros; apply weight_bound, Hr; auto)) as C.
  assert (Z.of_nat K * 2 ^ 31 <= 2 ^ 52)%Z. { change (2 ^ 52)%Z with (2 ^ 21 * 2 ^ 31)%Z. apply Z.mul_le_mono_nonneg_r; lia. }
  split; [lia|]. split; [lia|]. split; [lia|]. apply sumf_lin. reflexivity.
Qed.

(** kxq0 + kxq1 as read by the estimators *)
Definition ksum (k0 k1 : Z) : f64 := fadd (fst (kxq_of k0 k1)) (snd (kxq_of k0 k1)).
Lemma ksum_spec r K : low r K -> (1 <= Z.of_nat K <= 2 ^ 21)%Z ->
  let s := ksum (sumf inv0 r K) (sumf inv1 r K) in
  is_finite s = true /\ B2R s = rnd (IZR (sumf weight r K) * bpow radix2 (-63)) /\ IZR (Z.of_nat K) * bpow radix2 (-63) <= B2R s <= IZR (Z.of_nat K).
Proof.
  intros Hr HK s. destruct (kxq_bounds r K Hr HK) as (B0 & B1 & BW & EW).
  destruct (lit_spec (sumf inv0 r K) (-31)) as (F0 & V0); [lia|lia|]. destruct (lit_spec (sumf inv1 r K) (-63)) as (F1 & V1); [lia|lia|].
  assert (E : B2R (f_lit (sumf inv0 r K) (-31)) + B2R (f_lit (sumf inv1 r K) (-63)) = IZR (sumf weight r K) * bpow radix2 (-63)).
  { rewrite V0, V1, EW, plus_IZR, mult_IZR. change (bpow radix2 (-31)) with (bpow radix2 (32 + -63)). rewrite bpow_plus. change (bpow radix2 32) with (IZR (2 ^ 32)). ring. }
  assert (B : IZR (Z.of_nat K) * bpow radix2 (-63) <= IZR (sumf weight r K) * bpow radix2 (-63) <= IZR (Z.of_nat K)).
  { split; [apply Rmult_le_compat_r; [apply bpow_ge_0|]; apply IZR_le; lia|]. apply Rle_trans with (IZR (Z.of_nat K * 2 ^ 63) * bpow radix2 (-63)).
    - apply Rmult_le_compat_r; [apply bpow_ge_0|]. apply IZR_le. lia.
    - rewrite mult_IZR. change (IZR (2 ^ 63)) with (bpow radix2 63). rewrite Rmult_assoc, <- bpow_plus. change (bpow radix2 (63 + -63)) with 1. lra. }
  pose proof (bpow_gt_0 radix2 (-63)) as Pb. assert (PK : 1 <= IZR (Z.of_nat K)) by (apply IZR_le; lia).
  assert (P0 : 0 < IZR (Z.of_nat K) * bpow radix2 (-63)) by (apply Rmult_lt_0_compat; lra).
  destruct (add_spec (f_lit (sumf inv0 r K) (-31)) (f_lit (sumf inv1 r K) (-63)) 21) as (V & F & _); auto; try lia.
  { rewrite E, Rabs_pos_eq by lra. eapply Rle_trans; [apply B|]. change (bpow radix2 21) with (IZR (2 ^ 21)). apply IZR_le. lia. }
  rewrite E in V. unfold s, ksum, kxq_of. cbn [fst snd]. split; auto. split; auto. rewrite V. split.
  - apply rnd_ge; [|apply B]. apply fmt_lit; lia.
  - apply rnd_le_gen; [|apply B]. apply fmt_IZR. lia.
Qed.
(** One HIP increment *)
Definition hip_inc (lgK : N) (k0 k1 : Z) : f64 := fdiv (f_of_Z (Z.of_N (2 ^ lgK))) (ksum k0 k1).
Lemma hip_f_inc lgK k0 k1 h : hip_f lgK k0 k1 h = fadd h (hip_inc lgK k0 k1).
Proof. reflexivity. Qed.
Lemma hip_inc_spec lgK r : (lgK <= 21)%N -> low r (nslots lgK) ->
  let d := hip_inc lgK (sumf inv0 r (nslots lgK)) (sumf inv1 r (nslots lgK)) in is_finite d = true /\ 1 <= B2R d <= bpow radix2 63.
Proof.
  intros HK Hr d. pose proof (nslots_bound lgK HK) as BK. destruct (ksum_spec r (nslots lgK) Hr BK) as (Fs & _ & Bs).
  assert (EK : Z.of_N (2 ^ lgK) = Z.of_nat (nslots lgK)) by (unfold nslots; rewrite N_nat_Z; auto).
  unfold d, hip_inc. rewrite EK. destruct (of_Z_exact (Z.of_nat (nslots lgK))) as (FK & VK); [lia|].
  set (s := ksum _ _) in *. set (K := IZR (Z.of_nat (nslots lgK))) in *. assert (PK : 1 <= K) by (apply IZR_le; lia).
  pose proof (bpow_gt_0 radix2 (-63)) as Pb. assert (P0 : 0 < K * bpow radix2 (-63)) by (apply Rmult_lt_0_compat; lra).
  assert (Q : 1 <= K / B2R s <= bpow radix2 63).
  { assert (0 < / B2R s) by (apply Rinv_0_lt_compat; lra). split.
    - apply Rmult_le_reg_r with (B2R s); [lra|]. unfold Rdiv. rewrite Rmult_assoc, Rinv_l by lra. lra.
    - apply Rmult_le_reg_r with (B2R s); [lra|]. unfold Rdiv. rewrite Rmult_assoc, Rinv_l by lra. rewrite Rmult_1_r.
      apply Rle_trans with (bpow radix2 63 * (K * bpow radix2 (-63))); [|apply Rmult_le_compat_l; [apply bpow_ge_0|lra]].
      replace (bpow radix2 63 * (K * bpow radix2 (-63))) with (K * (bpow radix2 63 * bpow radix2 (-63))) by ring. rewrite <- bpow_plus. change (bpow radix2 (63 + -63)) with 1. lra. }
  destruct (div_spec (f_of_Z (Z.of_nat (nslots lgK))) s 63) as (V & F & B); auto; try lia; try lra.
  { rewrite VK. fold K. rewrite Rabs_pos_eq; lra. }
  split; auto. split; [|apply Rabs_le_inv in B; lra]. rewrite V, VK. apply rnd_ge; [apply (fmt_IZR 1); lia|apply Q].
Qed.
(** Adding it: the accumulator grows, by at least one while it is an exact count, and stays within M * 2^63 *)
Lemma hip_add_spec h d M : is_finite h = true -> is_finite d = true -> 1 <= B2R d <= bpow radix2 63 -> (0 <= M < 2 ^ 52)%Z -> 0 <= B2R h <= IZR M * bpow radix2 63 ->
  is_finite (fadd h d) = true /\ B2R h <= B2R (fadd h d) <= IZR (M + 1) * bpow radix2 63 /\
  forall n, (0 <= n < 2 ^ 52)%Z -> IZR n <= B2R h -> IZR (n + 1) <= B2R (fadd h d).
Proof.
  intros Fh Fd Hd HM Hh. assert (S : 0 <= B2R h + B2R d <= IZR (M + 1) * bpow radix2 63) by (rewrite plus_IZR; lra).
  destruct (add_spec h d 116) as (V & F & _); auto; try lia.
  { rewrite Rabs_pos_eq by lra. eapply Rle_trans; [apply S|]. change (bpow radix2 116) with (bpow radix2 (53 + 63)). rewrite bpow_plus. apply Rmult_le_compat_r; [apply bpow_ge_0|].
    change (bpow radix2 53) with (IZR (2 ^ 53)). apply IZR_le. lia. }
  split; auto. rewrite V. split; [split|].
  - apply rnd_ge; [apply fmt_B2R|lra].
  - apply rnd_le_gen; [apply fmt_lit; lia|lra].
  - intros n Hn Hl. apply rnd_ge; [apply fmt_IZR; lia|]. rewrite plus_IZR. lra.
Qed.

(** ** The accumulator along a history *)
Definition occ (v : N) : Z := if (v =? 0)%N then 0 else 1.
Lemma occ_count r K : (sumf occ r K + Z.of_nat (count 0 r K) = Z.of_nat K)%Z.
Proof. unfold count. induction K; cbn [sumf]; [reflexivity|]. rewrite cnt_S. unfold occ at 2. destruct (r K =? 0)%N; lia. Qed.
Lemma regs_sum f lgK c cs : (lgK <= 21)%N -> sumf f (regs lgK (c :: cs)) (nslots lgK) =
  if (regs lgK cs (cslot lgK c) <? cval c)%N then (sumf f (regs lgK cs) (nslots lgK) - f (regs lgK cs (cslot lgK c)) + f (cval c))%Z else sumf f (regs lgK cs) (nslots lgK).
Proof.
  intros HK. rewrite (sumf_ext f (regs lgK (c :: cs)) (rmax (regs lgK cs) (cslot lgK c) (cval c))) by (intros; apply regs_cons).
  destruct (N.ltb_spec (regs lgK cs (cslot lgK c)) (cval c)) as [L|L].
  - apply sumf_rmax; auto. unfold cslot, nslots. assert (2 ^ lgK <> 0)%N by (apply N.pow_nonzero; lia). pose proof (N.mod_lt c (2 ^ lgK) H). lia.
  - apply sumf_ext. intros. apply rmax_same. auto.
Qed.
Lemma occ_list lgK : (lgK <= 21)%N -> forall cs, (sumf occ (regs lgK cs) (nslots lgK) <= Z.of_nat (length cs))%Z.
Proof.
  intros HK. induction cs as [|c cs IH].
  - rewrite (sumf_ext occ (regs lgK []) (fun _ => 0%N)) by reflexivity. assert (E : forall K, sumf occ (fun _ => 0%N) K = 0%Z) by (induction K; cbn [sumf]; auto; rewrite IHK; reflexivity). rewrite E. lia.
  - rewrite regs_sum by auto. cbn [length]. unfold occ at 2 3. destruct (_ <? _)%N; [|lia]. destruct (_ =? 0)%N; destruct (cval c =? 0)%N; lia.
Qed.
Lemma occ_dist lgK cs : (lgK <= 21)%N -> (sumf occ (regs lgK cs) (nslots lgK) <= Z.of_nat (dist cs))%Z.
Proof.
  intros HK. unfold dist. rewrite (sumf_ext occ (regs lgK cs) (regs lgK (nodup N.eq_dec cs))); [apply occ_list; auto|].
  intros. apply regs_same. intros c. rewrite nodup_In. reflexivity.
Qed.
Lemma regs_low lgK cs K : Forall vcoupon cs -> low (regs lgK cs) K.
Proof. intros H i _. apply regs_lt; auto. Qed.
Lemma dist_cons_le c cs : (dist (c :: cs) <= S (dist cs))%nat.
Proof. unfold dist. cbn [nodup]. destruct (in_dec _ _ _); cbn [length]; lia. Qed.
Lemma dist_mono_cons c cs : (dist cs <= dist (c :: cs))%nat.
Proof. apply dist_mono. intros d Hd. right. auto. Qed.
Lemma under_dist lgK n : (lgK <= 21)%N -> over lgK n = false -> (n <= Z.to_nat 196608)%nat.
Proof.
  intros HK. unfold over. destruct (N.ltb_spec lgK 8); [destruct (Nat.leb_spec 8 n); [discriminate|lia]|].
  destruct (Nat.leb_spec 8 n); [|lia]. cbn [andb]. destruct (Nat.ltb_spec (3 * N.to_nat (2 ^ (lgK - 3))) (4 * n)); [discriminate|]. intros _.
  pose proof (N.pow_le_mono_r 2 (lgK - 3) 18 ltac:(lia) ltac:(lia)). change (2 ^ 18)%N with 262144%N in *. lia.
Qed.
Notation hipF := (hip_spec f_zero hip_f coupon_est).
Definition rsum (lgK : N) (cs : list N) : Z := sumf Z.of_N (regs lgK cs) (nslots lgK).
Lemma rsum_bound lgK cs : (lgK <= 21)%N -> Forall vcoupon cs -> (0 <= rsum lgK cs <= 2 ^ 27)%Z.
Proof.
  intros HK Hv. unfold rsum. pose proof (sumf_bounds Z.of_N (regs lgK cs) (nslots lgK) 0 63) as B. pose proof (nslots_bound lgK HK).
  assert (B' : (Z.of_nat (nslots lgK) * 0 <= sumf Z.of_N (regs lgK cs) (nslots lgK) <= Z.of_nat (nslots lgK) * 63)%Z) by (apply B; intros; pose proof (regs_lt lgK cs i Hv); lia). lia.
Qed.
Theorem hip_ok lgK : (lgK <= 21)%N -> forall cs, Forall vcoupon cs -> over lgK (dist cs) = true ->
  is_finite (hipF lgK cs) = true /\ IZR (sumf occ (regs lgK cs) (nslots lgK)) <= B2R (hipF lgK cs) <= IZR (1 + rsum lgK cs) * bpow radix2 63.
Proof.
  intros HK. pose proof (nslots_bound lgK HK) as BK. induction cs as [|c cs IH]; intros Hv Ho.
  - unfold over in Ho. cbn in Ho. destruct (lgK <? 8)%N; discriminate.
  - inversion Hv as [|? ? Hc Hv']; subst. cbn [hip_spec]. pose proof (rsum_bound lgK cs HK Hv') as BR. pose proof (rsum_bound lgK (c :: cs) HK Hv) as BR'.
    destruct (over lgK (dist cs)) eqn:Eo.
    + destruct (IH Hv' eq_refl) as (F & B). rewrite regs_sum by auto. unfold rsum. rewrite regs_sum by auto. fold (rsum lgK cs).
      destruct (N.ltb_spec (regs lgK cs (cslot lgK c)) (cval c)) as [L|L]; [|auto].
      rewrite hip_f_inc. destruct (hip_inc_spec lgK (regs lgK cs) HK (regs_low lgK cs _ Hv')) as (Fd & Bd).
      set (d := hip_inc _ _ _) in *. set (h := hipF lgK cs) in *. pose proof (sumf_bounds occ (regs lgK cs) (nslots lgK) 0 1) as Bo.
      assert (Bo' : (Z.of_nat (nslots lgK) * 0 <= sumf occ (regs lgK cs) (nslots lgK) <= Z.of_nat (nslots lgK) * 1)%Z) by (apply Bo; intros; unfold occ; destruct (_ =? 0)%N; lia).
      destruct (hip_add_spec h d (1 + rsum lgK cs) F Fd Bd ltac:(lia)) as (F' & B' & N').
      { split; [|apply B]. eapply Rle_trans; [|apply B]. apply IZR_le. lia. }
      split; auto. specialize (N' (sumf occ (regs lgK cs) (nslots lgK)) ltac:(lia) ltac:(apply B)). split.
      * eapply Rle_trans; [|exact N']. apply IZR_le. unfold occ at 2 3. destruct (_ =? 0)%N; destruct (cval c =? 0)%N; lia.
      * eapply Rle_trans; [apply B'|]. apply Rmult_le_compat_r; [apply bpow_ge_0|]. apply IZR_le. lia.
    + pose proof (under_dist lgK _ HK Eo) as U. pose proof (dist_cons_le c cs) as D. assert (Hn : (dist (c :: cs) <= Z.to_nat 196609)%nat) by lia.
      destruct (coupon_est_ok _ Hn) as (_ & F & G & A). split; auto. split.
      * eapply Rle_trans; [|exact G]. apply IZR_le. apply occ_dist. auto.
      * assert (I : ideal (Z.of_nat (dist (c :: cs))) <= 200000).
        { unfold ideal. set (n := Z.of_nat (dist (c :: cs))). assert (0 <= n <= 196609)%Z by lia. assert (IZR n <= 196609) by (apply IZR_le; lia). assert (IZR (n * n) <= 38655098881) by (apply IZR_le; nia). change (IZR (2 ^ 26)) with 67108864. lra. }
        apply Rabs_le_inv in A. apply Rle_trans with (1 * bpow radix2 63); [change (bpow radix2 63) with 9223372036854775808; lra|].
        apply Rmult_le_compat_r; [apply bpow_ge_0|]. apply IZR_le. lia.
Qed.

(** The estimate of a history, in any mode *)
Definition est_hist (lgK : N) (cs : list N) : f64 := if over lgK (dist cs) then hipF lgK cs else coupon_est (dist cs).
Theorem est_hist_mono lgK c cs : (lgK <= 21)%N -> Forall vcoupon (c :: cs) -> B2R (est_hist lgK cs) <= B2R (est_hist lgK (c :: cs)).
Proof.
  intros HK Hv. inversion Hv as [|? ? Hc Hv']; subst. unfold est_hist. pose proof (dist_mono_cons c cs) as D. pose proof (dist_cons_le c cs) as D'.
  destruct (over lgK (dist cs)) eqn:Eo.
  - rewrite (over_mono lgK (dist cs) (dist (c :: cs)) D Eo). cbn [hip_spec]. rewrite Eo. destruct (_ <? _)%N; [|lra].
    destruct (hip_ok lgK HK cs Hv' Eo) as (F & B). pose proof (rsum_bound lgK cs HK Hv').
    destruct (hip_inc_spec lgK (regs lgK cs) HK (regs_low lgK cs _ Hv')) as (Fd & Bd). rewrite hip_f_inc.
    destruct (hip_add_spec (hipF lgK cs) _ (1 + rsum lgK cs) F Fd Bd ltac:(lia)) as (_ & B' & _); [|apply B'].
    split; [|apply B]. eapply Rle_trans; [|apply B]. apply IZR_le. pose proof (sumf_bounds occ (regs lgK cs) (nslots lgK) 0 1) as Bo.
    assert (Bo' : (Z.of_nat (nslots lgK) * 0 <= sumf occ (regs lgK cs) (nslots lgK) <= Z.of_nat (nslots lgK) * 1)%Z) by (apply Bo; intros; unfold occ; destruct (_ =? 0)%N; lia). lia.
  - pose proof (under_dist lgK _ HK Eo) as U. assert (M : B2R (coupon_est (dist cs)) <= B2R (coupon_est (dist (c :: cs)))) by (apply coupon_est_mono; [auto|lia]).
    cbn [hip_spec]. rewrite Eo. destruct (over lgK (dist (c :: cs))); exact M.
Qed.
