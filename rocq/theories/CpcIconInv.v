(** * The ICON estimate inverts the expected number of coupons: from the closed checks to the float64 computation *)
From Coq Require Import ZArith Reals Rpower Bool Psatz.
From Flocq Require Import Core Relative BinarySingleNaN.
From Verif Require Import Base Bytes Arr FloatModel FloatProofs RankProofs HllEstModel HllEstProofs HllEstCoupon HllEstHip HllEstComp CpcEstTables CpcEstModel CpcEstKxp CpcEstConf CpcEstValue CpcIconBands CpcIcon.
From Coq Require Import Rdefinitions.
Local Open Scope R_scope.
#[local] Opaque recentre range scaled sq_loop cov_lo cov_hi.

Lemma in_bands_nth : forall bands P i k b, in_bands P i bands = true -> nth_error bands k = Some b -> exists Q, row_in_band Q (i + Z.of_nat k) b = true /\ forall w, peval Q w = peval P (2 * INR k + w).
Proof.
  induction bands as [|b0 bands IH]; intros P i k b C E; [destruct k; discriminate E|]. cbn [in_bands] in C. apply andb_prop in C. destruct C as [C1 C2]. destruct k as [|k]; cbn [nth_error] in E.
  - injection E as <-. exists P. rewrite Z.add_0_r. split; auto. intros w. f_equal. cbn [INR]. lra.
  - destruct (IH _ _ k b C2 E) as (Q & H1 & H2). exists Q. replace (i + Z.of_nat (S k))%Z with (i + 1 + Z.of_nat k)%Z by lia. split; auto. intros w. rewrite H2, recentre_ok, S_INR. f_equal. lra.
Qed.
Lemma row_good row : In row icon_coeffs -> length row = 20%nat /\ Forall (fun p => (-68 <= snd p)%Z) row /\ in_bands (recentre 1 (scaled 19 row)) 0 icon_bands = true.
Proof.
  intros H. pose proof bands_checked as C. rewrite forallb_forall in C. apply C in H. apply andb_prop in H. destruct H as [H B]. apply andb_prop in H. destruct H as [L F]. apply Nat.eqb_eq in L. split; auto. split; auto.
  apply Forall_forall. intros p Hp. rewrite forallb_forall in F. apply F in Hp. apply Z.leb_le. auto.
Qed.
(** The cubic term *)
Definition W : R := IZR w67 * bpow radix2 (-45).
Lemma W_val : 66 < W < 67 /\ W = IZR w67 / 35184372088832.
Proof.
  assert (E : W = IZR w67 / 35184372088832) by (unfold W; change (bpow radix2 (-45)) with (/ 35184372088832); reflexivity). split; auto. rewrite E. unfold w67. lra.
Qed.
Definition cubic_term (y : R) : R := 1 + y * y * y / W.
Lemma cube_mono a b : 0 <= a <= b -> a * a * a <= b * b * b.
Proof. intros H. apply Rmult_le_compat; [apply Rmult_le_pos; lra|lra|apply Rmult_le_compat; lra|lra]. Qed.
Lemma cubic_mono a b : 0 <= a <= b -> cubic_term a <= cubic_term b.
Proof. intros H. destruct W_val as (V & _). unfold cubic_term. apply Rplus_le_compat_l, Rmult_le_compat_r; [apply Rlt_le, Rinv_0_lt_compat; lra|apply cube_mono; auto]. Qed.
Lemma cubic_at j : cubic_term (IZR j / 16) * IZR w67 = IZR (w67 + j ^ 3 * 2 ^ 33).
Proof.
  destruct W_val as (V & E). unfold cubic_term. rewrite E. rewrite plus_IZR, mult_IZR. replace (j ^ 3)%Z with (j * j * j)%Z by ring. rewrite !mult_IZR. change (IZR (2 ^ 33)) with 8589934592. field. unfold w67. lra.
Qed.
Lemma poly_band row i b w : In row icon_coeffs -> nth_error icon_bands i = Some b -> Rabs w <= 1 -> let x := (IZR (2 * Z.of_nat i + 1) + w) / 64 in
  0 < lpoly row x /\ IZR (fst b) / 1048576 <= lpoly row x * cubic_term (2 * x) <= IZR (snd b) / 1048576.
Proof.
  intros H Eb Hw. destruct (row_good row H) as (L & F & C). destruct (in_bands_nth _ _ _ _ _ C Eb) as (Q & RB & PV). cbv zeta. set (z := IZR (2 * Z.of_nat i + 1) + w). specialize (PV w). rewrite recentre_ok in PV.
  replace (IZR 1 + (2 * INR i + w)) with z in PV by (unfold z; rewrite plus_IZR, mult_IZR, <- INR_IZR_INZ; ring). rewrite scaled_ok in PV by (auto; rewrite L; lia). change (68 + 6 * 19)%Z with 182%Z in PV.
  pose proof (range_ok Q w Hw) as RG. rewrite PV in RG. unfold row_in_band in RB. cbv zeta in RB. rewrite Z.add_0_l in RB. apply andb_prop in RB. destruct RB as [RB B3]. apply andb_prop in RB. destruct RB as [B1 B2]. apply Z.ltb_lt in B1. apply Z.leb_le in B2, B3.
  set (p := lpoly row (z / 64)) in *. set (lo := fst (range Q)) in *. set (hi := snd (range Q)) in *. clearbody lo hi p. clear PV C F L.
  apply Rabs_le_inv in Hw. assert (Zr : IZR (Z.of_nat i) / 16 <= 2 * (z / 64) <= IZR (Z.of_nat i + 1) / 16) by (unfold z; rewrite !plus_IZR, mult_IZR; lra).
  assert (I0 : 0 <= IZR (Z.of_nat i)) by (apply IZR_le; lia). set (T := cubic_term (2 * (z / 64))). assert (T1 : cubic_term (IZR (Z.of_nat i) / 16) <= T) by (apply cubic_mono; lra). assert (T2 : T <= cubic_term (IZR (Z.of_nat i + 1) / 16)) by (apply cubic_mono; lra).
  apply IZR_le in B2, B3. rewrite !mult_IZR, <- !cubic_at in B2, B3. rewrite <- !mult_IZR in B2, B3. set (D := bpow radix2 182) in *. assert (PD : 0 < D) by apply bpow_gt_0.
  assert (E162 : D = IZR (2 ^ 162) * 1048576). { unfold D. change (2 ^ 162)%Z with (radix2 ^ 162)%Z. rewrite IZR_Zpower by lia. change 1048576 with (bpow radix2 20). rewrite <- bpow_plus. reflexivity. }
  rewrite !mult_IZR in B2, B3. set (D1 := IZR (2 ^ 162)) in *. assert (P1 : 0 < D1) by (apply IZR_lt; reflexivity). clearbody D D1. assert (Pw : 0 < IZR w67) by (apply IZR_lt; reflexivity).
  assert (L0 : 0 < IZR lo) by (apply IZR_lt; auto). assert (Pp : 0 < p) by (apply Rmult_lt_reg_l with D; lra).
  set (t1 := cubic_term (IZR (Z.of_nat i) / 16)) in *. set (t2 := cubic_term (IZR (Z.of_nat i + 1) / 16)) in *.
  assert (T0 : 0 < t1). { unfold t1, cubic_term. destruct W_val as (V & _). assert (0 <= IZR (Z.of_nat i) / 16 * (IZR (Z.of_nat i) / 16) * (IZR (Z.of_nat i) / 16) / W) by (repeat apply Rmult_le_pos; try lra; apply Rlt_le, Rinv_0_lt_compat; lra). lra. }
  clearbody t1 t2. split; auto. split.
  - apply Rmult_le_reg_r with (D * IZR w67); [apply Rmult_lt_0_compat; auto|]. replace (IZR (fst b) / 1048576 * (D * IZR w67)) with (IZR (fst b) * IZR w67 * D1) by (rewrite E162; field). eapply Rle_trans; [exact B2|].
    replace (p * T * (D * IZR w67)) with (D * p * (T * IZR w67)) by ring. apply Rmult_le_compat; try lra; [apply Rmult_le_pos; lra|]. apply Rmult_le_compat_r; lra.
  - apply Rmult_le_reg_r with (D * IZR w67); [apply Rmult_lt_0_compat; auto|]. replace (IZR (snd b) / 1048576 * (D * IZR w67)) with (IZR (snd b) * IZR w67 * D1) by (rewrite E162; field). eapply Rle_trans; [|exact B3].
    replace (p * T * (D * IZR w67)) with (D * p * (T * IZR w67)) by ring. apply Rmult_le_compat; try lra; [apply Rmult_le_pos; lra|]. apply Rmult_le_compat_r; lra.
Qed.
Lemma bands_invert_nth : forall bands i k b, bands_invert i bands = true -> nth_error bands k = Some b -> band_inverts (i + Z.of_nat k) b = true.
Proof.
  induction bands as [|b0 bands IH]; intros i k b C E; [destruct k; discriminate E|]. cbn [bands_invert] in C. apply andb_prop in C. destruct C as [C1 C2]. destruct k as [|k]; cbn [nth_error] in E; [injection E as <-; rewrite Z.add_0_r; auto|].
  replace (i + Z.of_nat (S k))%Z with (i + 1 + Z.of_nat k)%Z by lia. eauto.
Qed.
Lemma invert i b y q : nth_error icon_bands i = Some b -> 0 < y -> INR i / 16 <= y <= INR (S i) / 16 -> IZR (fst (widened b)) / 1048576 <= q <= IZR (snd (widened b)) / 1048576 ->
  Rabs (cov 64 (y * q) - y) <= y / 16.
Proof.
  intros Eb Hy Hyi Hq. destruct inversion_checked as (C & _). apply (bands_invert_nth _ _ _ _ C) in Eb. rewrite Z.add_0_l in Eb. unfold band_inverts in Eb. destruct (widened b) as [l u] eqn:Wd. cbn [fst snd] in Hq.
  assert (Hl : (1048576 <= l)%Z) by (unfold widened in Wd; injection Wd as <- _; apply Z.le_max_l). cbv zeta in Eb. apply andb_prop in Eb. destruct Eb as [Eb B3]. apply andb_prop in Eb. destruct Eb as [B1 B2]. apply Z.leb_le in B2, B3.
  rewrite S_INR, INR_IZR_INZ in Hyi. set (n := Z.of_nat i) in *. assert (N0 : (0 <= n)%Z) by (unfold n; lia). clearbody n. clear Wd C. assert (Pl : 1048576 <= IZR l) by (apply IZR_le; auto). assert (Pu : 1048576 <= IZR u) by lra. assert (Hu : (1048576 <= u)%Z) by (apply le_IZR; auto).
  assert (NR : 0 <= IZR n) by (apply IZR_le; auto). assert (Q1 : 1 <= q) by lra. set (r := y * q). assert (Pr : 0 < r) by (apply Rmult_lt_0_compat; lra).
  assert (R1 : (0 <= (n + 1) * u <= 1125899906842624)%Z) by (split; [apply Z.mul_nonneg_nonneg; lia|auto]). assert (PP : 0 < IZR P60) by (apply IZR_lt; reflexivity).
  assert (RU : r <= IZR ((n + 1) * u) / 16777216). { unfold r. rewrite mult_IZR, plus_IZR. apply Rle_trans with ((IZR n + 1) / 16 * (IZR u / 1048576)); [apply Rmult_le_compat; lra|]. lra. }
  assert (YU : r <= y * (IZR u / 1048576)) by (apply Rmult_le_compat_l; lra). assert (YL : y * (IZR l / 1048576) <= r) by (apply Rmult_le_compat_l; lra).
  destruct (cov_bounds_ok _ 64 R1 ltac:(lia)) as (CL & _). set (r1 := IZR ((n + 1) * u) / 16777216) in *. pose proof (cov_ratio 64 r r1 ltac:(lra)) as RT.
  apply Rabs_le. split.
  - assert (G : 15 / 16 * y <= cov 64 r); [|lra]. apply Rmult_le_reg_r with r1; [lra|]. eapply Rle_trans; [|exact RT]. apply Rle_trans with (IZR (cov_lo ((n + 1) * u)) / IZR P60 * (y * (IZR l / 1048576))).
    + apply IZR_le in B2. rewrite !mult_IZR in B2. set (LO := IZR (cov_lo ((n + 1) * u))) in *. unfold r1. rewrite mult_IZR. apply Rmult_le_reg_r with (IZR P60 * 16 * 16777216); [lra|].
      replace (15 / 16 * y * (IZR (n + 1) * IZR u / 16777216) * (IZR P60 * 16 * 16777216)) with (y * (15 * IZR P60 * (IZR (n + 1) * IZR u))) by field. replace (LO / IZR P60 * (y * (IZR l / 1048576)) * (IZR P60 * 16 * 16777216)) with (y * (IZR l * LO * 16 * 16)) by (field; lra).
      apply Rmult_le_compat_l; lra.
    + apply Rmult_le_compat; auto; [|apply Rmult_le_pos; lra].
      apply Rmult_le_pos; [|apply Rlt_le, Rinv_0_lt_compat; auto]. apply IZR_le. assert (0 < l * cov_lo ((n + 1) * u) * 16 * 16)%Z by (eapply Z.lt_le_trans; [|exact B2]; assert (0 < (n + 1) * u)%Z by (apply Z.mul_pos_pos; lia); unfold P60; lia). 
      assert (0 < l * cov_lo ((n + 1) * u))%Z by lia. apply Z.lt_le_incl. eapply Zmult_lt_0_reg_r with l; [lia|]. lia.
  - assert (G : cov 64 r <= 17 / 16 * y); [|lra]. destruct (Z.eqb_spec n 0) as [En|Nn].
    + clear En. apply Z.leb_le in B1. apply IZR_le in B1. rewrite !mult_IZR in B1. pose proof (cov_le_r 64 r ltac:(lra)) as CR. eapply Rle_trans; [exact CR|]. eapply Rle_trans; [exact YU|]. rewrite Rmult_comm. apply Rmult_le_compat_r; lra.
    + apply Z.leb_le in B1. apply IZR_le in B1. rewrite !mult_IZR in B1. assert (N1 : 1 <= IZR n) by (apply IZR_le; lia).
      assert (R0 : (0 <= n * l <= 1125899906842624)%Z). { split; [apply Z.mul_nonneg_nonneg; lia|]. etransitivity; [|exact B3]. apply Z.mul_le_mono_nonneg; try lia. apply le_IZR. lra. }
      destruct (cov_bounds_ok _ 64 R0 ltac:(lia)) as (_ & CU). set (r0 := IZR (n * l) / 16777216) in *. assert (P0 : 0 < r0). { unfold r0. rewrite mult_IZR. apply Rmult_lt_0_compat; [apply Rmult_lt_0_compat; lra|lra]. }
      assert (R0r : r0 <= r). { unfold r0, r. rewrite mult_IZR. apply Rle_trans with (IZR n / 16 * (IZR l / 1048576)); [lra|]. apply Rmult_le_compat; lra. }
      pose proof (cov_ratio 64 r0 r ltac:(lra)) as RT2. apply Rmult_le_reg_r with r0; auto. eapply Rle_trans; [exact RT2|]. set (HI := IZR (cov_hi (n * l))) in *.
      assert (C0 : 0 <= cov 64 r0). { pose proof (cov_le 64 0 r0 ltac:(lra)) as Q. assert (Z : cov 64 0 <= 0) by (apply cov_le_r; lra). clear Z. pose proof (cov_more 0 64 0 ltac:(lra)) as M. cbn [cov Nat.add] in M. change (0 + 64)%nat with 64%nat in M. eapply Rle_trans; [exact M|exact Q]. }
      apply Rle_trans with (HI / IZR P60 * (y * (IZR u / 1048576))); [apply Rmult_le_compat; lra|]. unfold r0. rewrite mult_IZR. apply Rmult_le_reg_r with (IZR P60 * 16 * 16777216); [lra|].
      replace (HI / IZR P60 * (y * (IZR u / 1048576)) * (IZR P60 * 16 * 16777216)) with (y * (IZR u * HI * 16 * 16)) by (field; lra). replace (17 / 16 * y * (IZR n * IZR l / 16777216) * (IZR P60 * 16 * 16777216)) with (y * (17 * IZR P60 * (IZR n * IZR l))) by field.
      apply Rmult_le_compat_l; lra.
Qed.
