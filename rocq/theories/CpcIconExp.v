(** * The ICON estimate inverts the expected number of coupons: the exponential range and the whole estimate *)
From Coq Require Import ZArith Reals Rpower Bool Psatz.
From Flocq Require Import Core Relative BinarySingleNaN.
From Verif Require Import Base Bytes Arr FloatModel FloatProofs RankProofs HllEstModel HllEstProofs HllEstCoupon HllEstHip HllEstComp CpcEstTables CpcEstModel CpcEstKxp CpcEstConf CpcEstValue CpcIconBands CpcIcon CpcIconInv CpcIconVal.
From Coq Require Import Rdefinitions.
Local Open Scope R_scope.
#[local] Opaque recentre range scaled sq_loop cov_lo cov_hi.
#[local] Opaque recentre range scaled sq_loop cov_lo cov_hi.

Lemma cov_pow n s : 0 <= s -> forall m, INR m * (1 - exp (- s)) + cov n s <= cov (m + n) (2 ^ m * s) <= INR m + cov n s.
Proof.
  intros H. induction m as [|m IH]; [cbn [INR pow Nat.add]; rewrite Rmult_1_l; lra|]. cbn [Nat.add pow]. rewrite Rmult_assoc, cov_double, S_INR. assert (P : 1 <= 2 ^ m) by (apply pow_R1_Rle; lra).
  assert (S : s <= 2 ^ m * s) by (rewrite <- (Rmult_1_l s) at 1; apply Rmult_le_compat_r; lra). pose proof (exp_neg_le _ _ S) as E. pose proof (exp_pos (- (2 ^ m * s))). lra.
Qed.
Lemma quarter k a b : 0 <= a -> 0 <= b -> a * a * (a * a) <= 2 ^ k <= b * b * (b * b) -> a <= Rpower 2 (INR k / 4) <= b.
Proof.
  intros Ha Hb H. set (P := Rpower 2 (INR k / 4)). assert (PP : 0 < P) by apply exp_pos. assert (E : P * P * (P * P) = 2 ^ k). { unfold P. rewrite <- !Rpower_plus. replace (INR k / 4 + INR k / 4 + (INR k / 4 + INR k / 4)) with (INR k) by field. apply Rpower_pow. lra. }
  assert (Q : forall x y, 0 <= x -> x < y -> x * x * (x * x) < y * y * (y * y)). { intros x y Hx L. assert (x * x < y * y) by (apply Rmult_le_0_lt_compat; lra). assert (0 <= x * x) by (apply Rmult_le_pos; lra). apply Rmult_le_0_lt_compat; lra. }
  split; apply Rnot_lt_le; intros L; apply Q in L; lra.
Qed.
Definition exp_cells : list (Z * Z * Z * Z) := (* 4 f, 4 f', and the smallest and largest value of s in units of 2^-24 *)
  [(22, 23, 592151828, 731389320); (23, 24, 704169944, 869730888); (24, 25, 837518612, 1034300277); (25, 26, 995861977, 1229989725)]%Z.
Lemma exp_cells_ok : forallb (fun q => let '(a, b, lo, hi) := q in (15 * b * P60 <=? 64 * cov_lo lo)%Z && (64 * cov_hi hi <=? 17 * a * P60)%Z) exp_cells = true.
Proof. vm_compute. reflexivity. Qed.
Lemma exp_cell a b lo hi n f s : In (a, b, lo, hi) exp_cells -> (30 <= n)%nat -> IZR a / 4 <= f <= IZR b / 4 -> IZR lo / 16777216 <= s <= IZR hi / 16777216 -> 15 / 16 * f <= cov n s <= 17 / 16 * f.
Proof.
  intros H Hn Hf Hs. pose proof exp_cells_ok as C. rewrite forallb_forall in C. apply C in H as C'. apply andb_prop in C'. destruct C' as [C1 C2]. apply Z.leb_le in C1, C2. apply IZR_le in C1, C2. rewrite !mult_IZR in C1, C2. assert (PP : 0 < IZR P60) by (apply IZR_lt; reflexivity).
  assert (RB : (0 <= lo <= 1125899906842624)%Z /\ (0 <= hi <= 1125899906842624)%Z) by (unfold exp_cells in H; cbn [In] in H; repeat destruct H as [H|H]; try contradiction; injection H as _ _ <- <-; lia). destruct RB as [R1 R2].
  destruct (cov_bounds_ok lo n R1 Hn) as (L & _). destruct (cov_bounds_ok hi n R2 Hn) as (_ & U). pose proof (cov_le n _ _ (proj1 Hs)) as M1. pose proof (cov_le n _ _ (proj2 Hs)) as M2.
  split.
  - eapply Rle_trans; [|exact M1]. eapply Rle_trans; [|exact L]. apply Rmult_le_reg_r with (IZR P60); auto. replace (IZR (cov_lo lo) / IZR P60 * IZR P60) with (IZR (cov_lo lo)) by (field; lra). assert (f * IZR P60 <= IZR b / 4 * IZR P60) by (apply Rmult_le_compat_r; lra). lra.
  - eapply Rle_trans; [exact M2|]. eapply Rle_trans; [exact U|]. apply Rmult_le_reg_r with (IZR P60); auto. replace (IZR (cov_hi hi) / IZR P60 * IZR P60) with (IZR (cov_hi hi)) by (field; lra). assert (IZR a / 4 * IZR P60 <= f * IZR P60) by (apply Rmult_le_compat_r; lra). lra.
Qed.
Lemma cov_exp n f s : (30 <= n)%nat -> 11 / 2 <= f <= 13 / 2 -> 39 / 50 * Rpower 2 f <= s <= 81 / 100 * Rpower 2 f -> 15 / 16 * f <= cov n s <= 17 / 16 * f.
Proof.
  intros Hn Hf Hs. pose proof (quarter 22 (4525/100) (4526/100) ltac:(lra) ltac:(lra) ltac:(cbn [pow]; lra)) as Q1. pose proof (quarter 23 (5381/100) (5382/100) ltac:(lra) ltac:(lra) ltac:(cbn [pow]; lra)) as Q2.
  pose proof (quarter 24 64 64 ltac:(lra) ltac:(lra) ltac:(cbn [pow]; lra)) as Q3. pose proof (quarter 25 (7610/100) (7611/100) ltac:(lra) ltac:(lra) ltac:(cbn [pow]; lra)) as Q4. pose proof (quarter 26 (9050/100) (9051/100) ltac:(lra) ltac:(lra) ltac:(cbn [pow]; lra)) as Q5.
  assert (M : forall a b, a <= b -> Rpower 2 a <= Rpower 2 b) by (intros a b L; apply Rle_Rpower; lra).
  replace (INR 22) with 22 in Q1 by (rewrite INR_IZR_INZ; reflexivity). replace (INR 23) with 23 in Q2 by (rewrite INR_IZR_INZ; reflexivity). replace (INR 24) with 24 in Q3 by (rewrite INR_IZR_INZ; reflexivity). replace (INR 25) with 25 in Q4 by (rewrite INR_IZR_INZ; reflexivity). replace (INR 26) with 26 in Q5 by (rewrite INR_IZR_INZ; reflexivity).
  destruct (Rle_or_lt f (23 / 4)) as [H1|H1]; [|destruct (Rle_or_lt f 6) as [H2|H2]; [|destruct (Rle_or_lt f (25 / 4)) as [H3|H3]]].
  - eapply (exp_cell 22 23); [left; reflexivity|auto|lra|]. pose proof (M (22 / 4) f ltac:(lra)). pose proof (M f (23 / 4) ltac:(lra)). lra.
  - eapply (exp_cell 23 24); [right; left; reflexivity|auto|lra|]. pose proof (M (23 / 4) f ltac:(lra)). pose proof (M f (24 / 4) ltac:(lra)). lra.
  - eapply (exp_cell 24 25); [right; right; left; reflexivity|auto|lra|]. pose proof (M (24 / 4) f ltac:(lra)). pose proof (M f (25 / 4) ltac:(lra)). lra.
  - eapply (exp_cell 25 26); [right; right; right; left; reflexivity|auto|lra|]. pose proof (M (25 / 4) f ltac:(lra)). pose proof (M f (26 / 4) ltac:(lra)). lra.
Qed.
Lemma cov_exp_all y r : 11 / 2 <= y <= 32 -> 39 / 50 * Rpower 2 y <= r <= 81 / 100 * Rpower 2 y -> Rabs (cov 64 r - y) <= y / 16.
Proof.
  intros Hy Hr. set (z := Zfloor (y - 11 / 2)). pose proof (Zfloor_lb (y - 11 / 2)) as LB. pose proof (Zfloor_ub (y - 11 / 2)) as UB. fold z in LB, UB. assert (Z0 : (0 <= z)%Z) by (apply Zfloor_lub; lra). assert (Z1 : (z <= 27)%Z) by (apply le_IZR; lra).
  set (m := Z.to_nat z). assert (Em : INR m = IZR z) by (unfold m; rewrite INR_IZR_INZ, Z2Nat.id by lia; reflexivity). set (f := y - INR m). assert (Hf : 11 / 2 <= f <= 13 / 2) by (unfold f; lra).
  assert (E : Rpower 2 y = 2 ^ m * Rpower 2 f). { rewrite <- (Rpower_pow m 2) by lra. rewrite <- Rpower_plus. f_equal. unfold f. ring. } assert (Pm : 0 < 2 ^ m) by (apply pow_lt; lra). rewrite E in Hr.
  set (s := r / 2 ^ m). assert (Er : r = 2 ^ m * s) by (unfold s; field; lra). assert (Hs : 39 / 50 * Rpower 2 f <= s <= 81 / 100 * Rpower 2 f). { split; apply Rmult_le_reg_l with (2 ^ m); auto; lra. }
  pose proof (cov_exp (64 - m) f s ltac:(unfold m; lia) Hf Hs) as CF. pose proof (Rpower_lin f ltac:(lra)) as RL. assert (S17 : 16 <= s) by lra. pose proof (cov_pow (64 - m) s ltac:(lra) m) as CP. replace (m + (64 - m))%nat with 64%nat in CP by (unfold m; lia). rewrite <- Er in CP.
  assert (B : exp (- s) <= / 16). { assert (G : exp (- s) * (1 + s) <= 1). { replace 1 with (exp (- s) * exp s) at 2 by (rewrite <- exp_plus; replace (- s + s) with 0 by ring; apply exp_0). apply Rmult_le_compat_l; [apply Rlt_le, exp_pos|]. pose proof (exp_ineq1_le s). lra. } pose proof (exp_pos (- s)). assert (exp (- s) * 16 <= exp (- s) * (1 + s)) by (apply Rmult_le_compat_l; lra). lra. }
  assert (M0 : 0 <= INR m) by apply pos_INR. assert (BM : INR m * exp (- s) <= INR m * / 16) by (apply Rmult_le_compat_l; auto). assert (Ey : y = INR m + f) by (unfold f; ring). apply Rabs_le. lra.
Qed.

(** ** The whole estimate *)
Theorem icon_inverts fpow lgK c : pow_ok fpow -> (4 <= lgK <= 26)%nat -> (0 <= c <= 32 * 2 ^ Z.of_nat lgK)%Z ->
  exists e, icon_estimate fpow lgK c = Some e /\ Rabs (cov 64 (B2R e / bpow radix2 (Z.of_nat lgK)) - IZR c / bpow radix2 (Z.of_nat lgK)) <= IZR c / bpow radix2 (Z.of_nat lgK) / 16.
Proof.
  intros HP HK Hc. assert (PT : (2 ^ Z.of_nat lgK <= 2 ^ 26)%Z) by (apply Z.pow_le_mono_r; lia). set (K := bpow radix2 (Z.of_nat lgK)) in *. assert (PK : 16 <= K <= bpow radix2 26) by (unfold K; split; [change 16 with (bpow radix2 4)|]; apply bpow_le; lia). change (bpow radix2 26) with 67108864 in PK.
  unfold icon_estimate. destruct (Z.eqb_spec c 0) as [->|N0].
  { exists f_zero. split; auto. change (B2R f_zero) with 0. replace (0 / K) with 0 by (unfold Rdiv; ring). pose proof (cov_le_r 64 0 ltac:(lra)) as A. pose proof (cov_more 0 64 0 ltac:(lra)) as B. change (0 + 64)%nat with 64%nat in B. change (cov 0 0) with 0 in B. set (cc := cov 64 0) in *. clearbody cc. apply Rabs_le. lra. }
  destruct f1_val as (F1 & V1). destruct (Z.ltb_spec c 2) as [L2|L2].
  { exists f_1. split; auto. assert (c = 1%Z) by lia. subst c. rewrite V1. set (y := 1 / K). assert (Hy : 0 < y <= / 16). { unfold y. split; [apply Rmult_lt_0_compat; [lra|apply Rinv_0_lt_compat; lra]|]. unfold Rdiv. rewrite Rmult_1_l. apply Rinv_le_contravar; lra. }
    destruct (nth_error icon_bands 0) as [b|] eqn:Eb; [|discriminate Eb]. rewrite <- (Rmult_1_r y) at 1. apply (invert 0 b); auto; [lra|cbn [INR]; lra|]. assert (Wd : (fst (widened b) <= 1048576 <= snd (widened b))%Z). { injection Eb as <-. vm_compute. split; discriminate. } destruct Wd as [W1 W2]. apply IZR_le in W1, W2. lra. }
  cbv zeta. destruct (f_k_val lgK ltac:(lia)) as (Fk & Vk). destruct (of_Z_exact c ltac:(lia)) as (Fc & Vc). fold (thr lgK). destruct (thr_ok lgK) as (Ft & _). pose proof (thr_ok' lgK) as Bt. fold K in Vk.
  assert (Cc : 2 <= IZR c <= 32 * K). { split; [apply IZR_le; lia|]. unfold K. rewrite <- K_bpow. rewrite <- mult_IZR. apply IZR_le. lia. }
  destruct (mul_spec (thr lgK) (f_k lgK) 29) as (Vt & Ftk & _); auto; [lia| |].
  { rewrite Vk, Rabs_pos_eq by (apply Rmult_le_pos; lra). change (bpow radix2 29) with 536870912. apply Rle_trans with (8 * 67108864); [apply Rmult_le_compat; lra|lra]. }
  rewrite Vk in Vt. set (y := IZR c / K). assert (Ey : IZR c = y * K) by (unfold y; field; lra).
  destruct (flt (fmul (thr lgK) (f_k lgK)) (f_of_Z c)) eqn:T.
  - apply (flt_spec _ _ Ftk Fc) in T. rewrite Vc in T. eexists. split; [reflexivity|].
    assert (T5 : 11 / 2 * K <= IZR c). { apply Rle_trans with (B2R (fmul (thr lgK) (f_k lgK))); [|lra]. rewrite Vt. apply rnd_ge; [|apply Rmult_le_compat_r; lra]. replace (11 / 2 * K) with (IZR 11 * bpow radix2 (Z.of_nat lgK - 1)) by (unfold Zminus; rewrite bpow_plus; change (bpow radix2 (- (1))) with (/ 2); fold K; lra). apply fmt_lit; lia. }
    assert (Hy : 11 / 2 <= y <= 32) by (split; apply Rmult_le_reg_r with K; lra).
    destruct (div_spec (f_of_Z c) (f_k lgK) 6) as (Vq & Fq & _); auto; [lia|lra|rewrite Vc, Vk; fold y; rewrite Rabs_pos_eq by lra; change (bpow radix2 6) with 64; lra|].
    rewrite Vc, Vk, rnd_id in Vq by (replace (IZR c / K) with (IZR c * bpow radix2 (- Z.of_nat lgK)) by (rewrite bpow_opp; reflexivity); apply fmt_lit; lia). fold y in Vq.
    unfold icon_exp. destruct (HP (fdiv (f_of_Z c) (f_k lgK)) Fq ltac:(rewrite Vq; lra)) as (Fp & Ep). rewrite Vq in Ep. pose proof (Rpower_lin y ltac:(lra)) as RL. pose proof (Rpower_top y ltac:(lra)) as RT. set (p := fpow _ _) in *. set (Py := Rpower 2 y) in *. apply Rabs_le_inv in Ep.
    destruct (lit_spec 7151928925732127 (-53)) as (Fa & Va); [lia|lia|]. set (a := f_lit 7151928925732127 (-53)) in *. assert (Ba : 7940 / 10000 <= B2R a <= 7941 / 10000). { rewrite Va. change (bpow radix2 (-53)) with (/ 9007199254740992). lra. }
    assert (B1 : 7940 / 10000 * K <= B2R a * B2R (f_k lgK) <= K). { rewrite Vk. split; [apply Rmult_le_compat_r; lra|]. rewrite <- (Rmult_1_l K) at 2. apply Rmult_le_compat_r; lra. }
    destruct (mul_spec a (f_k lgK) 26) as (V1a & F1a & _); auto; [lia|rewrite Rabs_pos_eq by lra; change (bpow radix2 26) with 67108864; lra|].
    assert (Sm : forall z, 1 <= z -> rc u53 (rnd z) z). { intros z Hz. apply rc_rnd, norm_ge. apply Rle_trans with 1; auto. change 1 with (bpow radix2 0). apply bpow_le; lia. }
    destruct u53_small as (U0 & U1). pose proof (Sm (B2R a * B2R (f_k lgK)) ltac:(lra)) as R1. rewrite <- V1a, Vk in R1. destruct R1 as (t1 & H1 & E1). apply Rabs_le_inv in H1.
    assert (Pk0 : 0 < B2R a * K) by (apply Rmult_lt_0_compat; lra).
    assert (B2 : 79 / 100 * K <= B2R (fmul a (f_k lgK)) <= 2 * K). { rewrite E1. split; [apply Rle_trans with (B2R a * K * (9999 / 10000)); [|apply Rmult_le_compat_l; lra]|apply Rle_trans with (B2R a * K * 2); [apply Rmult_le_compat_l; lra|]]; rewrite Vk in B1; lra. }
    assert (Bp : 20 <= B2R p <= bpow radix2 65) by (change (bpow radix2 65) with (bpow radix2 (64 + 1)); rewrite bpow_plus; change (bpow radix2 1) with 2; lra).
    assert (B3 : 1 <= B2R (fmul a (f_k lgK)) * B2R p <= bpow radix2 100).
    { split; [apply Rle_trans with (1 * 1); [lra|apply Rmult_le_compat; lra]|]. apply Rle_trans with (bpow radix2 35 * bpow radix2 65); [apply Rmult_le_compat; try lra; change (bpow radix2 35) with 34359738368; lra|]. rewrite <- bpow_plus. apply bpow_le. lia. }
    destruct (mul_spec (fmul a (f_k lgK)) p 100) as (Ve & Fe & Be); auto; [lia|rewrite Rabs_pos_eq by lra; lra|]. pose proof (Sm _ (proj1 B3)) as R2. rewrite <- Ve in R2. destruct R2 as (t2 & H2 & E2). apply Rabs_le_inv in H2.
    apply cov_exp_all; auto. rewrite E2, E1. replace (B2R a * K * (1 + t1) * B2R p * (1 + t2) / K) with (B2R a * (1 + t1) * (1 + t2) * B2R p) by (field; lra). fold Py.
    assert (G : 7930 / 10000 <= B2R a * (1 + t1) * (1 + t2) <= 7950 / 10000).
    { assert (G1 : 7939 / 10000 <= B2R a * (1 + t1) <= 7942 / 10000) by (split; [apply Rle_trans with (7940 / 10000 * (99999 / 100000)); [lra|apply Rmult_le_compat; lra]|apply Rle_trans with (7941 / 10000 * (100001 / 100000)); [apply Rmult_le_compat; lra|lra]]).
      split; [apply Rle_trans with (7939 / 10000 * (99999 / 100000)); [lra|apply Rmult_le_compat; lra]|apply Rle_trans with (7942 / 10000 * (100001 / 100000)); [apply Rmult_le_compat; lra|lra]]. }
    split; [apply Rle_trans with (7930 / 10000 * B2R p); [lra|apply Rmult_le_compat_r; lra]|apply Rle_trans with (7950 / 10000 * B2R p); [apply Rmult_le_compat_r; lra|lra]].
  - apply flt_false in T; auto. rewrite Vc in T.
    assert (T6 : IZR c <= 23 / 4 * K). { eapply Rle_trans; [exact T|]. rewrite Vt. apply rnd_le_gen; [|apply Rmult_le_compat_r; lra]. replace (23 / 4 * K) with (IZR 23 * bpow radix2 (Z.of_nat lgK - 2)) by (unfold Zminus; rewrite bpow_plus; change (bpow radix2 (- (2))) with (/ 4); fold K; lra). apply fmt_lit; lia. }
    unfold icon_row. destruct (nth_error icon_coeffs (lgK - 4)) as [row|] eqn:Er. 2:{ apply nth_error_None in Er. pose proof coeffs_ok as C. unfold coeff_ok in C. apply andb_prop in C. destruct C as [L _]. apply Nat.eqb_eq in L. lia. }
    cbn [bindo]. change (map (fun p => f_lit (fst p) (snd p)) row) with (lits row). destruct (poly_branch lgK c row HK L2 (nth_error_In _ _ Er) T6) as (v & -> & G). cbn [bindo]. eexists. split; [reflexivity|]. exact G.
Qed.
