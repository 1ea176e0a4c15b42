(** * The HIP accumulator of a CPC sketch, the ICON estimate and the confidence bounds in binary64 *)
From Coq Require Import ZArith Reals Bool Psatz Permutation.
From Flocq Require Import Core Relative BinarySingleNaN.
From Verif Require Import Base Bytes Arr BitPackModel BitPackProofs FloatModel FloatProofs RankProofs CpcTable CpcTableProofs CpcModel CpcProofs CpcSketch HllEstModel HllEstProofs HllEstCoupon HllEstHip HllEstComp CpcEstTables CpcEstModel CpcEstKxp.
From Coq Require Import Rdefinitions.
Local Open Scope R_scope.

(** ** HIP *)
Fixpoint hipR (lgK : nat) (cs : list N) : R :=
  match cs with [] => 0 | _ :: r => hipR lgK r + bpow radix2 (Z.of_nat lgK + 64) / IZR (left64 lgK r) end.
Definition hipE (d : nat) (cs : list N) : R := bpow radix2 (Z.of_nat d - 50) + IZR (Z.of_nat (length cs) + 1) * bpow radix2 (-52).
Definition hacc_ok (lgK d : nat) (h : f64) (cs : list N) : Prop :=
  is_finite h = true /\ IZR (Z.of_nat (length cs)) <= B2R h <= IZR (Z.of_nat (length cs)) * bpow radix2 63 /\ Rabs (B2R h - hipR lgK cs) <= hipE d cs * hipR lgK cs.
Lemma okc_tail lgK x cs : okc lgK (x :: cs) -> okc lgK cs.
Proof. intros [ND LT]. inversion ND; subst. split; auto. intros y Hy. apply LT. right; auto. Qed.
Lemma below_tail d x cs : cols_below d (x :: cs) -> cols_below d cs.
Proof. intros H y Hy. apply H. right; auto. Qed.
Lemma okc_length lgK cs : (lgK <= 26)%nat -> okc lgK cs -> (Z.of_nat (length cs) <= 2 ^ 32)%Z.
Proof.
  intros HK [ND LT]. assert (I : incl (map N.to_nat cs) (seq 0 (2 ^ (6 + lgK)))).
  { intros y Hy. apply in_map_iff in Hy. destruct Hy as (x & <- & Hx). apply in_seq. apply LT in Hx. split; [lia|]. cbn [plus]. change (S (S (S (S (S (S lgK)))))) with (6 + lgK)%nat. rewrite <- (N2Nat.id x) in Hx. rewrite <- pow_N in Hx. lia. }
  assert (ND' : NoDup (map N.to_nat cs)) by (apply FinFun.Injective_map_NoDup; auto; intros a b; apply N2Nat.inj).
  pose proof (NoDup_incl_length ND' I) as L. rewrite map_length, seq_length in L. apply Nat2Z.inj_le in L. rewrite K_Z in L. assert ((2 ^ Z.of_nat (6 + lgK) <= 2 ^ 32)%Z) by (apply Z.pow_le_mono_r; lia). lia.
Qed.
Lemma div_near K l k rho : 0 < K -> 0 < l -> 0 < k -> 0 <= rho <= / 16 -> Rabs (k - l) <= rho * l -> Rabs (K / k - K / l) <= 2 * rho * (K / l).
Proof.
  intros PK Pl Pk Hr H. assert (Lk : l * (15 / 16) <= k). { apply Rabs_le_inv in H. assert (rho * l <= / 16 * l) by (apply Rmult_le_compat_r; lra). lra. }
  replace (K / k - K / l) with ((l - k) * (K / (k * l))) by (field; lra). rewrite Rabs_mult. assert (P1 : 0 < K / (k * l)) by (apply Rdiv_lt_0_compat; auto; apply Rmult_lt_0_compat; auto).
  rewrite (Rabs_pos_eq (K / (k * l))) by lra. rewrite Rabs_minus_sym. apply Rle_trans with (rho * l * (K / (k * l))); [apply Rmult_le_compat_r; lra|].
  replace (rho * l * (K / (k * l))) with (rho * (K / l) * (l / k)) by (field; lra). replace (2 * rho * (K / l)) with (rho * (K / l) * 2) by ring.
  apply Rmult_le_compat_l; [apply Rmult_le_pos; [lra|]; apply Rlt_le, Rdiv_lt_0_compat; auto|]. apply Rmult_le_reg_r with k; auto. unfold Rdiv. rewrite Rmult_assoc, Rinv_l by lra. lra.
Qed.
Lemma hip_inc_ok lgK kxp cs d : (lgK <= 26)%nat -> okc lgK cs -> cols_below d cs -> (d <= 47)%nat -> kxp_ok lgK kxp cs ->
  let i := fdiv (f_k lgK) kxp in let D := bpow radix2 (Z.of_nat lgK + 64) / IZR (left64 lgK cs) in
  is_finite i = true /\ 1 <= B2R i <= bpow radix2 63 /\ 1 <= D /\ Rabs (B2R i - D) <= (bpow radix2 (Z.of_nat d - 50) + bpow radix2 (-52)) * D.
Proof.
  intros HK OK CB Hd KO i D. pose proof (kxp_lower lgK kxp cs d OK CB Hd KO) as KL. destruct KO as (F & B & E).
  assert (P : (2 ^ Z.of_nat lgK <= 2 ^ 26)%Z) by (apply Z.pow_le_mono_r; lia). pose proof (Z.pow_pos_nonneg 2 (Z.of_nat lgK) ltac:(lia) ltac:(lia)) as P0.
  destruct (of_Z_exact (2 ^ Z.of_nat lgK)) as (Fk & Vk); [lia|]. rewrite K_bpow in Vk. fold (f_k lgK) in Fk, Vk.
  destruct (left_lower lgK cs d OK CB ltac:(lia)) as (L1 & L2). apply IZR_le in L1, L2.
  replace (IZR (2 ^ (Z.of_nat lgK + 64 - Z.of_nat d))) with (bpow radix2 (Z.of_nat lgK + 64 - Z.of_nat d)) in L1 by (rewrite <- (IZR_Zpower radix2); [auto|lia]).
  replace (IZR (2 ^ (Z.of_nat lgK + 64))) with (bpow radix2 (Z.of_nat lgK + 64)) in L2 by (rewrite <- (IZR_Zpower radix2); [auto|lia]).
  set (K := bpow radix2 (Z.of_nat lgK)) in *. assert (PK : 0 < K) by apply bpow_gt_0.
  set (l := IZR (left64 lgK cs) * bpow radix2 (-64)) in *.
  pose proof (bpow_gt_0 radix2 (Z.of_nat lgK + 64 - Z.of_nat d)) as PL. pose proof (bpow_gt_0 radix2 (-64)) as P64.
  assert (Pl : 0 < l) by (apply Rmult_lt_0_compat; lra).
  assert (ED : D = K / l). { unfold D, l, K. rewrite bpow_plus. change (bpow radix2 (-64)) with (/ bpow radix2 64). pose proof (bpow_gt_0 radix2 64). field. lra. }
  assert (Ll : bpow radix2 (Z.of_nat lgK - Z.of_nat d) <= l <= K).
  { unfold l, K. split.
    - apply Rle_trans with (bpow radix2 (Z.of_nat lgK + 64 - Z.of_nat d) * bpow radix2 (-64)); [|apply Rmult_le_compat_r; lra]. rewrite <- bpow_plus. apply bpow_le. lia.
    - apply Rle_trans with (bpow radix2 (Z.of_nat lgK + 64) * bpow radix2 (-64)); [apply Rmult_le_compat_r; lra|]. rewrite <- bpow_plus. apply bpow_le. lia. }
  pose proof (bpow_gt_0 radix2 (Z.of_nat lgK - Z.of_nat d)) as Pd. set (k := B2R kxp) in *. assert (Pk : 0 < k) by lra.
  assert (D1 : 1 <= D). { rewrite ED. apply Rmult_le_reg_r with l; auto. unfold Rdiv. rewrite Rmult_assoc, Rinv_l by lra. lra. }
  assert (Q : 1 <= K / k <= bpow radix2 63).
  { split; [apply Rmult_le_reg_r with k; auto; unfold Rdiv; rewrite Rmult_assoc, Rinv_l by lra; lra|].
    apply Rmult_le_reg_r with k; auto. unfold Rdiv. rewrite Rmult_assoc, Rinv_l by lra. rewrite Rmult_1_r.
    apply Rle_trans with (bpow radix2 63 * (bpow radix2 (Z.of_nat lgK - Z.of_nat d) * (15 / 16))); [|apply Rmult_le_compat_l; [apply bpow_ge_0|auto]].
    rewrite <- Rmult_assoc, <- bpow_plus. assert (A : bpow radix2 (Z.of_nat lgK + 1) <= bpow radix2 (63 + (Z.of_nat lgK - Z.of_nat d))) by (apply bpow_le; lia). rewrite bpow_plus in A. change (bpow radix2 1) with 2 in A. fold K in A. lra. }
  destruct (div_spec (f_k lgK) kxp 63) as (V & Fi & Bi); auto; [lia|unfold k in *; lra|rewrite Vk, Rabs_pos_eq; fold k; lra|]. fold i in V, Fi, Bi. rewrite Vk in V. fold k in V.
  assert (I1 : 1 <= B2R i) by (rewrite V; apply rnd_ge; [apply (fmt_IZR 1); lia|apply Q]). apply Rabs_le_inv in Bi. split; auto. split; [lra|]. split; auto.
  set (rho := bpow radix2 (Z.of_nat d - 51)). assert (R0 : 0 <= rho <= / 16). { unfold rho. split; [apply bpow_ge_0|]. change (/ 16) with (bpow radix2 (-4)). apply bpow_le. lia. }
  assert (ER : Rabs (k - l) <= rho * l). { eapply Rle_trans; [exact E|]. apply Rle_trans with (rho * bpow radix2 (Z.of_nat lgK - Z.of_nat d)); [|apply Rmult_le_compat_l; lra]. unfold rho. rewrite <- bpow_plus. apply bpow_le. lia. }
  pose proof (div_near K l k rho PK Pl Pk R0 ER) as DN. rewrite <- ED in DN.
  destruct (rnd_rel (K / k)) as (eps & He & Ee). { rewrite Rabs_pos_eq by lra. apply Rle_trans with 1; [|lra]. change 1 with (bpow radix2 0). apply bpow_le. lia. }
  replace (bpow radix2 (Z.of_nat d - 50)) with (2 * rho) by (unfold rho; replace (Z.of_nat d - 51)%Z with (Z.of_nat d - 50 - 1)%Z by lia; rewrite bpow_m1; lra).
  rewrite V, Ee. replace (K / k * (1 + eps) - D) with ((K / k - D) + eps * (K / k)) by ring. eapply Rle_trans; [apply Rabs_triang|]. rewrite Rabs_mult, (Rabs_pos_eq (K / k)) by lra.
  assert (UK : K / k <= 2 * D). { apply Rabs_le_inv in DN. assert (2 * rho * D <= D) by (apply Rle_trans with (2 * / 16 * D); [apply Rmult_le_compat_r; lra|lra]). lra. }
  replace (bpow radix2 (-52)) with (bpow radix2 (-53) * 2) by (change (-53)%Z with (-52 - 1)%Z; rewrite bpow_m1; lra).
  assert (Rabs eps * (K / k) <= bpow radix2 (-53) * (2 * D)) by (apply Rmult_le_compat; [apply Rabs_pos|lra|auto|auto]). lra.
Qed.
Lemma hipR_ge lgK d : (d <= 64)%nat -> forall cs, okc lgK cs -> cols_below d cs -> IZR (Z.of_nat (length cs)) <= hipR lgK cs.
Proof.
  intros Hd. induction cs as [|x cs IH]; intros OK CB; cbn [hipR length]; [change (Z.of_nat 0) with 0%Z; lra|]. specialize (IH (okc_tail _ _ _ OK) (below_tail _ _ _ CB)).
  destruct (left_lower lgK cs d (okc_tail _ _ _ OK) (below_tail _ _ _ CB) Hd) as (L1 & L2). pose proof (Z.pow_pos_nonneg 2 (Z.of_nat lgK + 64 - Z.of_nat d) ltac:(lia) ltac:(lia)) as P.
  apply IZR_le in L2. replace (IZR (2 ^ (Z.of_nat lgK + 64))) with (bpow radix2 (Z.of_nat lgK + 64)) in L2 by (rewrite <- (IZR_Zpower radix2); [auto|lia]). assert (PL : 0 < IZR (left64 lgK cs)) by (apply IZR_lt; lia).
  assert (1 <= bpow radix2 (Z.of_nat lgK + 64) / IZR (left64 lgK cs)). { apply Rmult_le_reg_r with (IZR (left64 lgK cs)); auto. unfold Rdiv. rewrite Rmult_assoc, Rinv_l by lra. lra. }
  rewrite Nat2Z.inj_succ, succ_IZR. lra.
Qed.
Lemma hacc_step lgK kxp h x cs d : (lgK <= 26)%nat -> okc lgK (x :: cs) -> cols_below d (x :: cs) -> (d <= 47)%nat -> kxp_ok lgK kxp cs -> hacc_ok lgK d h cs ->
  hacc_ok lgK d (fadd h (fdiv (f_k lgK) kxp)) (x :: cs) /\ B2R h + 1 <= B2R (fadd h (fdiv (f_k lgK) kxp)) * (1 + bpow radix2 (-52)) /\ B2R h <= B2R (fadd h (fdiv (f_k lgK) kxp)).
Proof.
  intros HK OK CB Hd KO (Fh & Bh & Eh). pose proof (okc_tail _ _ _ OK) as OK'. pose proof (below_tail _ _ _ CB) as CB'. pose proof (okc_length lgK (x :: cs) HK OK) as LN.
  destruct (hip_inc_ok lgK kxp cs d HK OK' CB' Hd KO) as (Fi & Bi & D1 & Ei). pose proof (hipR_ge lgK d ltac:(lia) cs OK' CB') as HG.
  set (i := fdiv (f_k lgK) kxp) in *. set (D := bpow radix2 (Z.of_nat lgK + 64) / IZR (left64 lgK cs)) in *. set (n := Z.of_nat (length cs)) in *.
  assert (En : Z.of_nat (length (x :: cs)) = (n + 1)%Z) by (cbn [length]; lia). rewrite En in LN. assert (N0 : (0 <= n)%Z) by lia. assert (Nr : 0 <= IZR n) by (apply IZR_le; auto).
  destruct (hip_add_spec h i n Fh Fi Bi ltac:(lia) ltac:(lra)) as (Fa & (B1 & B2) & B3).
  destruct (add_spec h i 116) as (V & _ & _); auto; [lia| |].
  { rewrite Rabs_pos_eq by lra. apply Rle_trans with (IZR (n + 1) * bpow radix2 63); [rewrite plus_IZR; lra|]. replace 116%Z with (53 + 63)%Z by lia. rewrite bpow_plus. apply Rmult_le_compat_r; [apply bpow_ge_0|]. change (bpow radix2 53) with (IZR (2 ^ 53)). apply IZR_le. lia. }
  set (S := hipR lgK cs) in *. set (s := B2R h + B2R i) in *. pose proof (bpow_gt_0 radix2 (-53)) as Pu. assert (U2 : bpow radix2 (-52) = 2 * bpow radix2 (-53)) by (change (-53)%Z with (-52 - 1)%Z; rewrite bpow_m1; lra).
  destruct (rnd_rel s) as (eps & He & Ee). { unfold s. rewrite Rabs_pos_eq by lra. apply Rle_trans with 1; [|lra]. change 1 with (bpow radix2 0). apply bpow_le. lia. }
  split; [|split; [|rewrite V in *; auto]].
  - split; auto. rewrite En. split; [split; [apply B3; [lia|apply Bh]|exact B2]|]. cbn [hipR]. fold D. fold S.
    unfold hipE in *. rewrite En. fold n in Eh. set (rho := bpow radix2 (Z.of_nat d - 50)) in *. assert (R0 : 0 <= rho <= / 8). { unfold rho. split; [apply bpow_ge_0|]. change (/ 8) with (bpow radix2 (-3)). apply bpow_le. lia. }
    set (e := rho + IZR (n + 1) * bpow radix2 (-52)) in *.
    assert (E1 : IZR (n + 1) * bpow radix2 (-52) <= / 8). { change (/ 8) with (bpow radix2 (-3)). apply Rle_trans with (IZR (2 ^ 32) * bpow radix2 (-52)); [apply Rmult_le_compat_r; [apply bpow_ge_0|apply IZR_le; lia]|]. change (IZR (2 ^ 32)) with (bpow radix2 32). rewrite <- bpow_plus. apply bpow_le. lia. }
    assert (E1' : bpow radix2 (-52) <= IZR (n + 1) * bpow radix2 (-52)). { rewrite <- (Rmult_1_l (bpow radix2 (-52))) at 1. apply Rmult_le_compat_r; [apply bpow_ge_0|apply IZR_le; lia]. }
    assert (ES : Rabs (s - (S + D)) <= e * (S + D)).
    { unfold s. replace (B2R h + B2R i - (S + D)) with ((B2R h - S) + (B2R i - D)) by ring. eapply Rle_trans; [apply Rabs_triang|]. rewrite Rmult_plus_distr_l. apply Rplus_le_compat; [exact Eh|]. eapply Rle_trans; [exact Ei|]. apply Rmult_le_compat_r; [lra|]. unfold e. lra. }
    assert (Us : s <= 2 * (S + D)). { apply Rabs_le_inv in ES. assert (e * (S + D) <= 1 * (S + D)) by (apply Rmult_le_compat_r; unfold e; lra). lra. }
    assert (Ps : 0 <= s) by (unfold s; lra).
    rewrite V, Ee. replace (s * (1 + eps) - (S + D)) with ((s - (S + D)) + eps * s) by ring. eapply Rle_trans; [apply Rabs_triang|]. rewrite Rabs_mult, (Rabs_pos_eq s) by auto.
    replace (IZR (n + 1 + 1)) with (IZR (n + 1) + 1) by (rewrite (plus_IZR (n + 1)); reflexivity).
    replace (rho + (IZR (n + 1) + 1) * bpow radix2 (-52)) with (e + bpow radix2 (-52)) by (unfold e; ring). rewrite Rmult_plus_distr_r. apply Rplus_le_compat; auto.
    rewrite U2. replace (2 * bpow radix2 (-53) * (S + D)) with (bpow radix2 (-53) * (2 * (S + D))) by ring. apply Rmult_le_compat; auto. apply Rabs_pos.
  - rewrite V, Ee. apply Rle_trans with s; [unfold s; lra|]. assert (Ps : 0 <= s) by (unfold s; lra). rewrite Rmult_assoc. rewrite <- (Rmult_1_r s) at 1. apply Rmult_le_compat_l; auto.
    apply Rabs_le_inv in He. rewrite U2. assert (U1 : bpow radix2 (-53) <= / 4) by (change (/ 4) with (bpow radix2 (-2)); apply bpow_le; lia).
    apply Rle_trans with ((1 - bpow radix2 (-53)) * (1 + 2 * bpow radix2 (-53))); [|apply Rmult_le_compat_r; lra]. assert (bpow radix2 (-53) * bpow radix2 (-53) <= / 4 * bpow radix2 (-53)) by (apply Rmult_le_compat_r; lra). lra.
Qed.
Lemma hacc_init lgK d : hacc_ok lgK d f_zero [].
Proof. split; auto. cbn [B2R f_zero length hipR]. change (Z.of_nat 0) with 0%Z. split; [lra|]. rewrite Rmult_0_r, Rminus_0_r, Rabs_R0. lra. Qed.

(** Both accumulators *)
Definition acc_ok (lgK d : nat) (s : f64 * f64) (cs : list N) : Prop := kxp_ok lgK (fst s) cs /\ hacc_ok lgK d (snd s) cs.
Lemma acc_step d (s s' : cpc (f64 * f64)) x cs : inv s cs -> okc (c_lgK s) (x :: cs) -> cols_below d (x :: cs) -> (d <= 47)%nat -> (c_lgK s + d <= 53)%nat -> acc_ok (c_lgK s) d (c_hip s) cs ->
  hip_after cpc_hip s s' x (x :: cs) -> acc_ok (c_lgK s) d (c_hip s') (x :: cs) /\ B2R (snd (c_hip s)) <= B2R (snd (c_hip s')).
Proof.
  intros I OK CB Hd Hs (KO & HO) [SAME DIFF]. pose proof (i_lg _ _ I) as LG.
  pose proof (kxp_step_ok (c_lgK s) _ x cs d ltac:(lia) OK CB Hd Hs KO) as KO'. destruct (hacc_step (c_lgK s) _ _ x cs d ltac:(lia) OK CB Hd KO HO) as (HO' & _ & MO).
  destruct (Nat.eq_dec (c_off s') (c_off s)) as [E|E].
  - destruct (SAME E) as (-> & _). cbn [h_add cpc_hip update_hip fst snd]. split; [split; auto|auto].
  - destruct (DIFF E) as (m & M & _ & ->). cbn [h_add h_refresh cpc_hip]. destruct (c_off s' mod 8 =? 0)%nat; cbn [update_hip fst snd]; (split; [split; auto|auto]).
    cbn [fst]. apply refresh_ok; auto; [lia|]. intros y Hy. specialize (CB y Hy). lia.
Qed.
