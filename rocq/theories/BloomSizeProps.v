(** * C80: the sizes a Bloom filter is given for a target accuracy, in binary64.

    [B2R] is the real number a finite float64 stands for. *)
From Coq Require Import ZArith Bool List Lia Psatz Reals.
From Flocq Require Import Core BinarySingleNaN Relative.
From Verif Require Import Base Bytes BloomModel BloomProofs FloatModel FloatProofs RankModel RankProofs BloomSizeModel.
Local Open Scope R_scope.

(** ** Specification *)
(** A target false positive probability: a float64 strictly between 0 and 1 *)
Definition prob (p : f64) : Prop := is_finite p = true /\ 0 < B2R p < 1.
(** math.Log has a relative error of at most 2^-50 there (its documentation promises less than one unit in the last place). *)
Definition log_near (flog : f64 -> f64) : Prop := forall p, prob p ->
  is_finite (flog p) = true /\ Rabs (B2R (flog p) - ln (B2R p)) <= / 2 ^ 50 * Rabs (ln (B2R p)).
Definition valN (n : N) : R := IZR (Z.of_N n).
(** The textbook sizes: n ln(1/p) / (ln 2)^2 bits and ln(1/p) / ln 2 hash functions *)
Definition best_bits (n : N) (p : f64) : R := valN n * - ln (B2R p) / (ln 2 * ln 2).
Definition best_hashes (p : f64) : R := - ln (B2R p) / ln 2.
(** a is x up to a relative error of 2^-49, rounded up to an integer *)
Definition rounds_up (a : N) (x : R) : Prop := (1 - / 2 ^ 49) * x <= valN a <= (1 + / 2 ^ 49) * x + 1.

(** ** Proofs *)
(** Partial sums of the series of exp (-x), in Horner form *)
Fixpoint horner (x : R) (k : Z) (n : nat) : R := match n with O => 1 | S n' => 1 - x / IZR (k + 1) * horner x (k + 1) n' end.
Definition ut (x : R) (i : nat) : R := x ^ i / INR (fact i).
Lemma fact_pos i : 0 < INR (fact i).
Proof. apply lt_0_INR, lt_O_fact. Qed.
Lemma horner_sum x n : forall k, sum_f_R0 (fun i => (- x) ^ i * INR (fact k) / INR (fact (k + i))) n = horner x (Z.of_nat k) n.
Proof.
  induction n as [|n IH]; intros k.
  - cbn [sum_f_R0 horner pow]. rewrite Nat.add_0_r. pose proof (fact_pos k). field. lra.
  - rewrite decomp_sum by lia. cbn [pred horner]. rewrite Nat.add_0_r. replace (Z.of_nat k + 1)%Z with (Z.of_nat (S k)) by lia. rewrite <- IH. cbn [pow]. pose proof (fact_pos k) as P. replace (1 * INR (fact k) / INR (fact k)) with 1 by (field; lra).
    unfold Rminus. f_equal. rewrite Ropp_mult_distr_l.
    rewrite scal_sum. apply sum_eq. intros i _. replace (k + S i)%nat with (S k + i)%nat by lia. pose proof (fact_pos (S k + i)) as Q. rewrite <- INR_IZR_INZ. change (fact (S k)) with (S k * fact k)%nat. rewrite mult_INR. pose proof (lt_0_INR (S k) ltac:(lia)). field. lra.
Qed.
Lemma ut_decr x : 0 <= x <= 1 -> Un_decreasing (ut x).
Proof.
  intros H i. unfold ut. change (fact (S i)) with (S i * fact i)%nat. rewrite mult_INR. pose proof (fact_pos i) as P. assert (Q : 1 <= INR (S i)) by (apply (le_INR 1); lia). pose proof (pow_le x i ltac:(lra)) as X. cbn [pow].
  unfold Rdiv. rewrite Rinv_mult. assert (I : 0 < / INR (S i) <= 1) by (split; [apply Rinv_0_lt_compat; lra|rewrite <- Rinv_1; apply Rinv_le_contravar; lra]). assert (J : 0 < / INR (fact i)) by (apply Rinv_0_lt_compat; auto).
  assert (x * / INR (S i) <= 1) by nra. replace (x * x ^ i * (/ INR (S i) * / INR (fact i))) with (x ^ i * / INR (fact i) * (x * / INR (S i))) by ring. assert (0 <= x ^ i * / INR (fact i)) by nra. nra.
Qed.
Lemma exp_neg x N : 0 <= x <= 1 -> horner x 0 (S (2 * N)) <= exp (- x) <= horner x 0 (2 * N).
Proof.
  intros H. assert (E : forall n, sum_f_R0 (tg_alt (ut x)) n = horner x 0 n).
  { intros n. change 0%Z with (Z.of_nat 0). rewrite <- (horner_sum x n 0). apply sum_eq. intros i _. unfold tg_alt, ut. cbn [fact Nat.add]. rewrite <- (Rmult_1_l x) at 2. replace (- (1 * x)) with (-1 * x) by ring. rewrite Rpow_mult_distr. cbn [INR]. field. pose proof (fact_pos i). lra. }
  rewrite <- !E. apply alternated_series_ineq; [apply ut_decr; auto|apply cv_speed_pow_fact|].
  pose proof (proj2_sig (exist_exp (- x))) as C. change (proj1_sig (exist_exp (- x))) with (exp (- x)) in C. intros eps He. destruct (C eps He) as (M & HM). exists M. intros n Hn. specialize (HM n Hn).
  replace (sum_f_R0 (tg_alt (ut x)) n) with (sum_f_R0 (fun i => / INR (fact i) * (- x) ^ i) n); auto. apply sum_eq. intros i _. unfold tg_alt, ut. replace (- x) with (-1 * x) by ring. rewrite Rpow_mult_distr. unfold Rdiv. ring.
Qed.
(** math.Ln2 is the float64 nearest to ln 2. *)
Definition c2 : R := 6243314768165359 / 9007199254740992.
Lemma c2_is_ln_2 : Rabs (c2 - ln 2) <= / 2 ^ 54.
Proof.
  assert (A : exp (- (c2 + / 2 ^ 54)) <= / 2).
  { eapply Rle_trans; [apply (exp_neg _ 9); unfold c2; cbn [pow]; lra|]. unfold c2. cbn [Nat.mul Nat.add horner Z.add Pos.add Pos.succ pow]. lra. }
  assert (B : / 2 <= exp (- (c2 - / 2 ^ 54))).
  { eapply Rle_trans; [|apply (exp_neg _ 9); unfold c2; cbn [pow]; lra]. unfold c2. cbn [Nat.mul Nat.add horner Z.add Pos.add Pos.succ pow]. lra. }
  replace (/ 2) with (exp (- ln 2)) in A, B by (rewrite exp_Ropp, exp_ln by lra; reflexivity).
  assert (A' : - (c2 + / 2 ^ 54) <= - ln 2) by (destruct (Rle_or_lt (- (c2 + / 2 ^ 54)) (- ln 2)) as [|C]; auto; apply exp_increasing in C; lra).
  assert (B' : - ln 2 <= - (c2 - / 2 ^ 54)) by (destruct (Rle_or_lt (- ln 2) (- (c2 - / 2 ^ 54))) as [|C]; auto; apply exp_increasing in C; lra).
  apply Rabs_le. lra.
Qed.
Definition bits64 (n : N) (p : f64) : R := valN n * - ln (B2R p) / (c2 * c2).
Definition hashes64 (p : f64) : R := - ln (B2R p) / c2.
Definition near (e u : R) : Prop := 1 - e <= u <= 1 + e.
Lemma near_mul a b u v : 0 <= a <= / 4 -> 0 <= b <= / 4 -> near a u -> near b v -> near (a + b + a * b) (u * v).
Proof. unfold near. intros A B U V. split; nra. Qed.
Lemma near_inv a u : 0 <= a <= / 4 -> near a u -> near (a + 2 * (a * a)) (/ u).
Proof.
  unfold near. intros A U. assert (P : 0 < u) by lra. assert (E : u * / u = 1) by (apply Rinv_r; lra). assert (I : 0 < / u) by (apply Rinv_0_lt_compat; auto).
  split; apply Rmult_le_reg_r with u; auto; rewrite (Rmult_comm (/ u)), E; nra.
Qed.
Lemma near_weak a b u : a <= b -> near a u -> near b u.
Proof. unfold near. lra. Qed.
Lemma near_rnd x : bpow radix2 (-1022) <= Rabs x -> exists u, near (/ 2 ^ 53) u /\ rnd x = x * u.
Proof.
  intros H. destruct (rnd_rel x H) as (e & A & B). exists (1 + e). split; auto. change (bpow radix2 (-53)) with (/ 9007199254740992) in A. apply Rabs_le_inv in A. unfold near. lra.
Qed.
Lemma small_bpow e : (-1022 <= e)%Z -> forall x, bpow radix2 e <= x -> bpow radix2 (-1022) <= Rabs x.
Proof. intros H x L. pose proof (bpow_le radix2 (-1022) e H). pose proof (bpow_gt_0 radix2 (-1022)). rewrite Rabs_pos_eq; lra. Qed.

Lemma c2_spec : is_finite f_ln2 = true /\ B2R f_ln2 = c2.
Proof. split; [reflexivity|]. unfold c2. vm_compute. lra. Qed.
Lemma c2_range : / 2 <= c2 <= 1.
Proof. unfold c2. lra. Qed.

Lemma ln_range p : prob p -> bpow radix2 (-53) <= - ln (B2R p) <= 1074.
Proof.
  intros (F & P0 & P1). split.
  - assert (G : B2R p <= 1 - bpow radix2 (-53)).
    { change 1 with (bpow radix2 0) in P1 |- *. replace (bpow radix2 0 - bpow radix2 (-53)) with (pred radix2 (SpecFloat.fexp 53 1024) (bpow radix2 0)) by (rewrite pred_bpow; reflexivity).
      apply pred_ge_gt; auto; try typeclasses eauto; [apply fmt_B|apply fmt_bpow; lia]. }
    assert (ln (B2R p) <= B2R p - 1). { pose proof (exp_ineq1_le (ln (B2R p))) as E. rewrite exp_ln in E by auto. lra. }
    lra.
  - assert (G : bpow radix2 (-1074) <= B2R p).
    { assert (S : is_finite_strict p = true) by (destruct p; try discriminate; auto; cbn [B2R] in P0; lra). pose proof (abs_B2R_ge_emin 53 1024 p S) as A. rewrite Rabs_pos_eq in A by lra. exact A. }
    assert (L : ln (bpow radix2 (-1074)) <= ln (B2R p)). { destruct G as [G|G]; [left; apply ln_increasing; auto; apply bpow_gt_0|rewrite G; right; auto]. }
    rewrite bpow_exp, ln_exp in L. change (IZR radix2) with 2 in L. assert (ln 2 <= 1). { pose proof (exp_ineq1_le 1). pose proof (ln_exp 1) as E. rewrite <- E. destruct (Rle_lt_or_eq_dec 2 (exp 1)) as [A|A]; [lra|left; apply ln_increasing; lra|rewrite <- A; lra]. }
    lra.
Qed.
Lemma log_factor flog p : log_near flog -> prob p -> is_finite (flog p) = true /\ exists u, near (/ 2 ^ 50) u /\ B2R (flog p) = ln (B2R p) * u.
Proof.
  intros H P. destruct (H p P) as (F & E). split; auto. pose proof (ln_range p P) as (A & _). pose proof (bpow_gt_0 radix2 (-53)). set (l := ln (B2R p)) in *. set (x := B2R (flog p)) in *.
  exists (x / l). split; [|field; lra]. rewrite (Rabs_left l) in E by lra. apply Rabs_le_inv in E. assert (Q : x / l * l = x) by (field; lra). unfold near. split; nra.
Qed.
Lemma to_uint_spec w (x : f64) z : is_finite x = true -> B2R x = IZR z -> (0 <= z < 2 ^ w)%Z -> to_uint w x = Ans (Z.to_N z).
Proof.
  intros F E H. unfold to_uint. rewrite F. pose proof (Btrunc_correct 53 1024 _ x) as T. rewrite round_int, E, Ztrunc_IZR in T.
  apply eq_IZR in T. rewrite T. destruct (Z.leb_spec 0 z); [|lia]. destruct (Z.ltb_spec z (2 ^ w)); [reflexivity|lia].
Qed.
Lemma to_uint_out w (x : f64) z : is_finite x = true -> B2R x = IZR z -> (2 ^ w <= z)%Z -> to_uint w x = Unspecified.
Proof.
  intros F E H. unfold to_uint. rewrite F. pose proof (Btrunc_correct 53 1024 _ x) as T. rewrite round_int, E, Ztrunc_IZR in T.
  apply eq_IZR in T. rewrite T. destruct (Z.ltb_spec z (2 ^ w)); [lia|rewrite andb_false_r; reflexivity].
Qed.
Lemma ceil_bounds x : x <= IZR (Zceil x) < x + 1.
Proof. split; [apply Zceil_ub|]. pose proof (Zceil_lb x). lra. Qed.
(** The conversion of a rounded up positive number *)
Lemma ceil_uint w (q : f64) : is_finite q = true -> 0 < B2R q <= IZR (2 ^ w) - 1 -> exists m, to_uint w (fceil q) = Ans m /\ (1 <= m)%N /\ B2R q <= valN m < B2R q + 1.
Proof.
  intros F H. destruct (ceil_spec q F) as (E & Fc). pose proof (ceil_bounds (B2R q)) as B.
  assert (Z1 : (0 < Zceil (B2R q))%Z) by (apply lt_IZR; lra). assert (Z2 : (Zceil (B2R q) < 2 ^ w)%Z) by (apply lt_IZR; lra).
  exists (Z.to_N (Zceil (B2R q))). split; [apply to_uint_spec; auto; lia|]. split; [lia|]. unfold valN. rewrite Z2N.id by lia. exact B.
Qed.
Lemma ceil_uint_out w (q : f64) : is_finite q = true -> IZR (2 ^ w) <= B2R q -> to_uint w (fceil q) = Unspecified.
Proof.
  intros F H. destruct (ceil_spec q F) as (E & Fc). pose proof (ceil_bounds (B2R q)) as B. eapply to_uint_out; eauto. apply le_IZR. lra.
Qed.
Lemma valN_factor n : (1 <= n < 2 ^ 64)%N -> is_finite (f_of_Z (Z.of_N n)) = true /\ 1 <= B2R (f_of_Z (Z.of_N n)) <= bpow radix2 64 /\ exists u, near (/ 2 ^ 53) u /\ B2R (f_of_Z (Z.of_N n)) = valN n * u.
Proof.
  intros H. destruct (of_N_fin n) as (F & E & B); [lia|]. pose proof (of_N_ge1 n ltac:(lia)). split; auto. split; [lra|]. rewrite E. apply near_rnd. apply (small_bpow 0); [lia|]. apply (IZR_le 1). lia.
Qed.
Lemma neg_fin (x : f64) : is_finite (fneg x) = is_finite x.
Proof. destruct x; reflexivity. Qed.
Lemma neg_val (x : f64) : B2R (fneg x) = - B2R x.
Proof. apply B2R_Bopp. Qed.
(** c2 * c2, rounded *)
Lemma sq_factor : is_finite (fmul f_ln2 f_ln2) = true /\ exists u, near (/ 2 ^ 53) u /\ B2R (fmul f_ln2 f_ln2) = c2 * c2 * u.
Proof.
  destruct c2_spec as (F & E). pose proof c2_range. destruct (mul_spec f_ln2 f_ln2 0) as (V & Fm & _); auto; [lia|rewrite E; rewrite Rabs_pos_eq by nra; change (bpow radix2 0) with 1; nra|].
  split; auto. rewrite V, E. apply near_rnd. apply (small_bpow (-2)); [lia|]. change (bpow radix2 (-2)) with (/ 4). nra.
Qed.
Lemma bpow_num : bpow radix2 64 = 2 ^ 64 /\ bpow radix2 (-53) = / 2 ^ 53.
Proof. split; cbn; lra. Qed.
Lemma bits_raw flog n p : log_near flog -> (1 <= n < 2 ^ 64)%N -> prob p ->
  let q := fdiv (fmul (fneg (f_of_Z (Z.of_N n))) (flog p)) (fmul f_ln2 f_ln2) in
  is_finite q = true /\ 0 < bits64 n p /\ exists u, near (/ 2 ^ 50 + / 2 ^ 51 + / 2 ^ 57) u /\ B2R q = bits64 n p * u.
Proof.
  intros HL HN P q. destruct (valN_factor n HN) as (Fn & Bn & u1 & N1 & E1). destruct (log_factor flog p HL P) as (Fl & u2 & N2 & E2). destruct (ln_range p P) as (L1 & L2). destruct sq_factor as (Fs & u4 & N4 & E4). pose proof c2_range as R2. destruct bpow_num as (B64 & B53). rewrite B53 in L1. rewrite B64 in Bn.
  set (l := - ln (B2R p)) in *. assert (El : B2R (flog p) = - (l * u2)) by (rewrite E2; unfold l; lra).
  assert (S50 : 0 < / 2 ^ 50 <= / 1024) by (cbn [pow]; lra). assert (S53 : 0 < / 2 ^ 53 <= / 1024) by (cbn [pow]; lra). assert (V2 : / 2 <= u2 <= 2) by (unfold near in N2; lra). assert (V4 : / 2 <= u4 <= 2) by (unfold near in N4; lra).
  set (nf := B2R (f_of_Z (Z.of_N n))) in *.
  assert (PQ : / 2 ^ 54 <= nf * (l * u2) <= 2 ^ 64 * 2148).
  { assert (Lu : / 2 ^ 54 <= l * u2 <= 2148) by (replace (/ 2 ^ 54) with (/ 2 ^ 53 * / 2) by (cbn [pow]; lra); split; [apply Rmult_le_compat; lra|replace 2148 with (1074 * 2) by lra; apply Rmult_le_compat; lra]).
    assert (0 < / 2 ^ 54) by (cbn [pow]; lra). split; [replace (/ 2 ^ 54) with (1 * / 2 ^ 54) by lra; apply Rmult_le_compat; lra|apply Rmult_le_compat; lra]. }
  destruct (mul_spec (fneg (f_of_Z (Z.of_N n))) (flog p) 80) as (Em & Fm & _); [lia|rewrite neg_fin; auto|auto| |].
  { rewrite neg_val, El. fold nf. replace (- nf * - (l * u2)) with (nf * (l * u2)) by lra. rewrite Rabs_pos_eq; [|assert (0 < / 2 ^ 54) by (cbn [pow]; lra); lra]. replace (bpow radix2 80) with (2 ^ 80) by (cbn; lra). assert (2 ^ 64 * 2148 <= 2 ^ 80) by (cbn [pow]; lra). lra. }
  rewrite neg_val, El in Em. fold nf in Em. replace (- nf * - (l * u2)) with (nf * (l * u2)) in Em by lra.
  assert (B54 : bpow radix2 (-54) = / 2 ^ 54) by (cbn; lra). assert (S54 : 0 < / 2 ^ 54) by (cbn [pow]; lra).
  destruct (near_rnd (nf * (l * u2))) as (u3 & N3 & E3); [apply (small_bpow (-54)); [lia|rewrite B54; lra]|]. rewrite E3 in Em. assert (V3 : / 2 <= u3 <= 2) by (unfold near in N3; lra).
  set (x := fmul (fneg (f_of_Z (Z.of_N n))) (flog p)) in *. set (d := fmul f_ln2 f_ln2) in *.
  assert (Dp : / 8 <= B2R d <= 2) by (rewrite E4; assert (/ 4 <= c2 * c2 <= 1) by nra; nra).
  assert (Xp : / 2 ^ 55 <= B2R x <= 2 ^ 64 * 4296). { rewrite Em. replace (/ 2 ^ 55) with (/ 2 ^ 54 * / 2) by (cbn [pow]; lra). split; [apply Rmult_le_compat; lra|]. replace (2 ^ 64 * 4296) with (2 ^ 64 * 2148 * 2) by lra. apply Rmult_le_compat; lra. }
  assert (S55 : 0 < / 2 ^ 55) by (cbn [pow]; lra).
  assert (Di : / 2 <= / B2R d <= 8). { split; [apply Rinv_le; lra|]. replace 8 with (/ / 8) by lra. apply Rinv_le; lra. }
  assert (Qp : / 2 ^ 56 <= B2R x / B2R d <= 2 ^ 64 * 34368). { unfold Rdiv. replace (/ 2 ^ 56) with (/ 2 ^ 55 * / 2) by (cbn [pow]; lra). split; [apply Rmult_le_compat; lra|]. replace (2 ^ 64 * 34368) with (2 ^ 64 * 4296 * 8) by lra. apply Rmult_le_compat; lra. }
  assert (S56 : 0 < / 2 ^ 56) by (cbn [pow]; lra).
  destruct (div_spec x d 90) as (Eq & Fq & _); auto; [lia|lra|rewrite Rabs_pos_eq by lra; replace (bpow radix2 90) with (2 ^ 90) by (cbn; lra); assert (2 ^ 64 * 34368 <= 2 ^ 90) by (cbn [pow]; lra); lra|].
  assert (B56 : bpow radix2 (-56) = / 2 ^ 56) by (cbn; lra).
  destruct (near_rnd (B2R x / B2R d)) as (u5 & N5 & E5); [apply (small_bpow (-56)); [lia|rewrite B56; lra]|].
  split; auto. assert (N0 : 0 < valN n) by (apply (IZR_lt 0); lia). assert (L0 : 0 < l) by (assert (0 < / 2 ^ 53) by lra; lra).
  split; [unfold bits64; fold l; apply Rmult_lt_0_compat; [nra|apply Rinv_0_lt_compat; nra]|].
  exists (u1 * u2 * u3 * u5 * / u4). split.
  - assert (H12 := near_mul (/ 2 ^ 53) (/ 2 ^ 50) u1 u2 ltac:(lra) ltac:(lra) N1 N2). apply (near_weak _ (/ 2 ^ 50 + / 2 ^ 53 + / 2 ^ 60)) in H12; [|cbn [pow]; lra].
    assert (H123 := near_mul (/ 2 ^ 50 + / 2 ^ 53 + / 2 ^ 60) (/ 2 ^ 53) (u1 * u2) u3 ltac:(cbn [pow]; lra) ltac:(lra) H12 N3). apply (near_weak _ (/ 2 ^ 50 + 2 * / 2 ^ 53 + 2 * / 2 ^ 60)) in H123; [|cbn [pow]; lra].
    assert (H1235 := near_mul (/ 2 ^ 50 + 2 * / 2 ^ 53 + 2 * / 2 ^ 60) (/ 2 ^ 53) (u1 * u2 * u3) u5 ltac:(cbn [pow]; lra) ltac:(lra) H123 N5). apply (near_weak _ (/ 2 ^ 50 + 3 * / 2 ^ 53 + 3 * / 2 ^ 60)) in H1235; [|cbn [pow]; lra].
    assert (H4 := near_inv (/ 2 ^ 53) u4 ltac:(lra) N4). apply (near_weak _ (/ 2 ^ 53 + / 2 ^ 60)) in H4; [|cbn [pow]; lra].
    assert (H := near_mul (/ 2 ^ 50 + 3 * / 2 ^ 53 + 3 * / 2 ^ 60) (/ 2 ^ 53 + / 2 ^ 60) (u1 * u2 * u3 * u5) (/ u4) ltac:(cbn [pow]; lra) ltac:(cbn [pow]; lra) H1235 H4). eapply near_weak; [|exact H]. cbn [pow]. lra.
  - unfold q. rewrite Eq, E5, Em, E4, E1. unfold bits64. fold l. field. split; lra.
Qed.
Lemma size_raw n m : (1 <= n < 2 ^ 64)%N -> (1 <= m < 2 ^ 64)%N ->
  let q := fmul (fdiv (f_of_Z (Z.of_N m)) (f_of_Z (Z.of_N n))) f_ln2 in
  is_finite q = true /\ exists u, near (/ 2 ^ 51 + / 2 ^ 57) u /\ B2R q = valN m / valN n * c2 * u.
Proof.
  intros HN HM q. destruct (valN_factor n HN) as (Fn & Bn & u1 & N1 & E1). destruct (valN_factor m HM) as (Fm & Bm & u2 & N2 & E2). pose proof c2_range as R2. destruct c2_spec as (Fl & El). destruct bpow_num as (B64 & B53). rewrite B64 in Bn, Bm.
  assert (S53 : 0 < / 2 ^ 53 <= / 1024) by (cbn [pow]; lra). assert (S64 : 0 < / 2 ^ 64) by (cbn [pow]; lra). assert (V1 : / 2 <= u1 <= 2) by (unfold near in N1; lra).
  set (nf := B2R (f_of_Z (Z.of_N n))) in *. set (mf := B2R (f_of_Z (Z.of_N m))) in *.
  assert (In : / 2 ^ 64 <= / nf <= 1) by (split; [apply Rinv_le; lra|rewrite <- Rinv_1; apply Rinv_le; lra]).
  assert (Rp : / 2 ^ 64 <= mf / nf <= 2 ^ 64). { unfold Rdiv. split; [replace (/ 2 ^ 64) with (1 * / 2 ^ 64) by lra; apply Rmult_le_compat; lra|replace (2 ^ 64) with (2 ^ 64 * 1) by lra; apply Rmult_le_compat; lra]. }
  destruct (div_spec (f_of_Z (Z.of_N m)) (f_of_Z (Z.of_N n)) 64) as (Ed & Fd & _); auto; [lia|fold nf; lra|fold nf mf; rewrite Rabs_pos_eq by lra; rewrite B64; lra|]. fold nf mf in Ed.
  assert (B_64 : bpow radix2 (-64) = / 2 ^ 64) by (cbn; lra).
  destruct (near_rnd (mf / nf)) as (u3 & N3 & E3); [apply (small_bpow (-64)); [lia|rewrite B_64; lra]|]. rewrite E3 in Ed. assert (V3 : / 2 <= u3 <= 2) by (unfold near in N3; lra).
  set (d := fdiv (f_of_Z (Z.of_N m)) (f_of_Z (Z.of_N n))) in *.
  assert (Dp : / 2 ^ 65 <= B2R d <= 2 ^ 65). { rewrite Ed. replace (/ 2 ^ 65) with (/ 2 ^ 64 * / 2) by (cbn [pow]; lra). replace (2 ^ 65) with (2 ^ 64 * 2) by (cbn [pow]; lra). split; apply Rmult_le_compat; lra. }
  assert (S65 : 0 < / 2 ^ 65) by (cbn [pow]; lra).
  assert (Pp : / 2 ^ 66 <= B2R d * c2 <= 2 ^ 65). { replace (/ 2 ^ 66) with (/ 2 ^ 65 * / 2) by (cbn [pow]; lra). split; [apply Rmult_le_compat; lra|]. replace (2 ^ 65) with (2 ^ 65 * 1) by lra. apply Rmult_le_compat; lra. }
  assert (S66 : 0 < / 2 ^ 66) by (cbn [pow]; lra).
  destruct (mul_spec d f_ln2 65) as (Em & Fq & _); auto; [lia|rewrite El; rewrite Rabs_pos_eq by lra; replace (bpow radix2 65) with (2 ^ 65) by (cbn; lra); lra|]. rewrite El in Em.
  destruct (near_rnd (B2R d * c2)) as (u4 & N4 & E4); [apply (small_bpow (-66)); [lia|replace (bpow radix2 (-66)) with (/ 2 ^ 66) by (cbn; lra); lra]|].
  split; auto. assert (N0 : 0 < valN n) by (apply (IZR_lt 0); lia).
  exists (u2 * u3 * u4 * / u1). split.
  - assert (H23 := near_mul (/ 2 ^ 53) (/ 2 ^ 53) u2 u3 ltac:(lra) ltac:(lra) N2 N3). apply (near_weak _ (2 * / 2 ^ 53 + / 2 ^ 60)) in H23; [|cbn [pow]; lra].
    assert (H234 := near_mul (2 * / 2 ^ 53 + / 2 ^ 60) (/ 2 ^ 53) (u2 * u3) u4 ltac:(cbn [pow]; lra) ltac:(lra) H23 N4). apply (near_weak _ (3 * / 2 ^ 53 + 2 * / 2 ^ 60)) in H234; [|cbn [pow]; lra].
    assert (H1 := near_inv (/ 2 ^ 53) u1 ltac:(lra) N1). apply (near_weak _ (/ 2 ^ 53 + / 2 ^ 60)) in H1; [|cbn [pow]; lra].
    assert (H := near_mul (3 * / 2 ^ 53 + 2 * / 2 ^ 60) (/ 2 ^ 53 + / 2 ^ 60) (u2 * u3 * u4) (/ u1) ltac:(cbn [pow]; lra) ltac:(cbn [pow]; lra) H234 H1). eapply near_weak; [|exact H]. cbn [pow]. lra.
  - unfold q. rewrite Em, E4, Ed, E1, E2. field. split; lra.
Qed.
Lemma hashes_raw flog p : log_near flog -> prob p -> let q := fdiv (fneg (flog p)) f_ln2 in is_finite q = true /\ exists u, near (/ 2 ^ 50 + / 2 ^ 53 + / 2 ^ 57) u /\ B2R q = hashes64 p * u.
Proof.
  intros HL P q. destruct (log_factor flog p HL P) as (Fl & u2 & N2 & E2). destruct (ln_range p P) as (L1 & L2). pose proof c2_range as R2. destruct c2_spec as (F2 & El2). destruct bpow_num as (B64 & B53). rewrite B53 in L1.
  set (l := - ln (B2R p)) in *. assert (El : B2R (fneg (flog p)) = l * u2) by (rewrite neg_val, E2; unfold l; lra).
  assert (S50 : 0 < / 2 ^ 50 <= / 1024) by (cbn [pow]; lra). assert (S53 : 0 < / 2 ^ 53 <= / 1024) by (cbn [pow]; lra). assert (V2 : / 2 <= u2 <= 2) by (unfold near in N2; lra).
  assert (Lu : / 2 ^ 54 <= l * u2 <= 2148) by (replace (/ 2 ^ 54) with (/ 2 ^ 53 * / 2) by (cbn [pow]; lra); split; [apply Rmult_le_compat; lra|replace 2148 with (1074 * 2) by lra; apply Rmult_le_compat; lra]).
  assert (S54 : 0 < / 2 ^ 54) by (cbn [pow]; lra). assert (Il : 1 <= / c2 <= 2) by (split; [rewrite <- Rinv_1 at 1; apply Rinv_le; lra|replace 2 with (/ / 2) by lra; apply Rinv_le; lra]).
  assert (Q : / 2 ^ 54 <= l * u2 / c2 <= 4296) by (unfold Rdiv; split; [replace (/ 2 ^ 54) with (/ 2 ^ 54 * 1) by lra; apply Rmult_le_compat; lra|replace 4296 with (2148 * 2) by lra; apply Rmult_le_compat; lra]).
  destruct (div_spec (fneg (flog p)) f_ln2 20) as (Eq & Fq & _); [lia|rewrite neg_fin; auto|rewrite El2; lra|rewrite El, El2, Rabs_pos_eq by lra; replace (bpow radix2 20) with (2 ^ 20) by (cbn; lra); assert (4296 <= 2 ^ 20) by (cbn [pow]; lra); lra|].
  rewrite El, El2 in Eq. destruct (near_rnd (l * u2 / c2)) as (u5 & N5 & E5); [apply (small_bpow (-54)); [lia|replace (bpow radix2 (-54)) with (/ 2 ^ 54) by (cbn; lra); lra]|].
  split; auto. exists (u2 * u5). split.
  - assert (H := near_mul (/ 2 ^ 50) (/ 2 ^ 53) u2 u5 ltac:(lra) ltac:(lra) N2 N5). eapply near_weak; [|exact H]. cbn [pow]. lra.
  - unfold q. rewrite Eq, E5. unfold hashes64. fold l. field. lra.
Qed.

(** From the constant to ln 2 *)
Lemma ln2_range : / 2 <= ln 2 <= 1.
Proof. pose proof c2_is_ln_2 as H. apply Rabs_le_inv in H. assert (/ 2 ^ 54 <= / 8) by (cbn [pow]; lra). unfold c2 in H. lra. Qed.
Lemma inv_ln2 : 1 <= / ln 2 <= 2.
Proof. pose proof ln2_range as R. set (x := ln 2) in *. clearbody x. split; [rewrite <- Rinv_1 at 1; apply Rinv_le; lra|replace 2 with (/ / 2) by lra; apply Rinv_le; lra]. Qed.
Lemma c2_factor : exists v, near (/ 2 ^ 53) v /\ c2 = ln 2 * v.
Proof.
  pose proof c2_is_ln_2 as H. apply Rabs_le_inv in H. pose proof ln2_range as R2. exists (c2 / ln 2). split; [|field; lra]. assert (E : / 2 ^ 53 = 2 * / 2 ^ 54) by (cbn [pow]; lra). rewrite E. set (e := / 2 ^ 54) in *. assert (0 < e) by (unfold e; cbn [pow]; lra). clearbody e.
  assert (Q : c2 / ln 2 * ln 2 = c2) by (field; lra). unfold near. split; apply Rmult_le_reg_r with (ln 2); nra.
Qed.
Lemma bits_q flog n p : log_near flog -> (1 <= n < 2 ^ 64)%N -> prob p ->
  let q := fdiv (fmul (fneg (f_of_Z (Z.of_N n))) (flog p)) (fmul f_ln2 f_ln2) in
  is_finite q = true /\ 0 < best_bits n p /\ exists u, near (/ 2 ^ 49) u /\ B2R q = best_bits n p * u.
Proof.
  intros HL HN P q. destruct (bits_raw flog n p HL HN P) as (F & B0 & u & Nu & E). destruct c2_factor as (v & Nv & Ev). pose proof ln2_range as R2. assert (S53 : 0 < / 2 ^ 53 <= / 4) by (cbn [pow]; lra). assert (V : / 2 <= v <= 2) by (unfold near in Nv; lra).
  split; auto. destruct (ln_range p P) as (A & _). pose proof (bpow_gt_0 radix2 (-53)). assert (N0 : 0 < valN n) by (apply (IZR_lt 0); lia).
  split; [unfold best_bits; apply Rmult_lt_0_compat; [nra|apply Rinv_0_lt_compat; nra]|]. exists (u * (/ v * / v)). split.
  - assert (H4 := near_inv (/ 2 ^ 53) v ltac:(lra) Nv). apply (near_weak _ (/ 2 ^ 53 + / 2 ^ 60)) in H4; [|cbn [pow]; lra].
    assert (H5 := near_mul (/ 2 ^ 53 + / 2 ^ 60) (/ 2 ^ 53 + / 2 ^ 60) (/ v) (/ v) ltac:(cbn [pow]; lra) ltac:(cbn [pow]; lra) H4 H4). apply (near_weak _ (/ 2 ^ 52 + / 2 ^ 58)) in H5; [|cbn [pow]; lra].
    assert (H6 := near_mul (/ 2 ^ 50 + / 2 ^ 51 + / 2 ^ 57) (/ 2 ^ 52 + / 2 ^ 58) u (/ v * / v) ltac:(cbn [pow]; lra) ltac:(cbn [pow]; lra) Nu H5). eapply near_weak; [|exact H6]. cbn [pow]. lra.
  - unfold q. rewrite E. unfold bits64, best_bits. rewrite Ev. field. lra.
Qed.
Lemma size_q n m : (1 <= n < 2 ^ 64)%N -> (1 <= m < 2 ^ 64)%N ->
  let q := fmul (fdiv (f_of_Z (Z.of_N m)) (f_of_Z (Z.of_N n))) f_ln2 in
  is_finite q = true /\ exists u, near (/ 2 ^ 50) u /\ B2R q = valN m / valN n * ln 2 * u.
Proof.
  intros HN HM q. destruct (size_raw n m HN HM) as (F & u & Nu & E). destruct c2_factor as (v & Nv & Ev). split; auto. exists (u * v). split.
  - assert (H6 := near_mul (/ 2 ^ 51 + / 2 ^ 57) (/ 2 ^ 53) u v ltac:(cbn [pow]; lra) ltac:(cbn [pow]; lra) Nu Nv). eapply near_weak; [|exact H6]. cbn [pow]. lra.
  - unfold q. rewrite E, Ev. ring.
Qed.
Lemma hashes_q flog p : log_near flog -> prob p -> let q := fdiv (fneg (flog p)) f_ln2 in is_finite q = true /\ exists u, near (/ 2 ^ 49) u /\ B2R q = best_hashes p * u.
Proof.
  intros HL P q. destruct (hashes_raw flog p HL P) as (F & u & Nu & E). destruct c2_factor as (v & Nv & Ev). pose proof ln2_range as R2. assert (S53 : 0 < / 2 ^ 53 <= / 4) by (cbn [pow]; lra). assert (V : / 2 <= v <= 2) by (unfold near in Nv; lra). split; auto. exists (u * / v). split.
  - assert (H4 := near_inv (/ 2 ^ 53) v ltac:(lra) Nv). apply (near_weak _ (/ 2 ^ 53 + / 2 ^ 60)) in H4; [|cbn [pow]; lra].
    assert (H6 := near_mul (/ 2 ^ 50 + / 2 ^ 53 + / 2 ^ 57) (/ 2 ^ 53 + / 2 ^ 60) u (/ v) ltac:(cbn [pow]; lra) ltac:(cbn [pow]; lra) Nu H4). eapply near_weak; [|exact H6]. cbn [pow]. lra.
  - unfold q. rewrite E. unfold hashes64, best_hashes. rewrite Ev. field. lra.
Qed.

(** ** Theorems *)
(** SuggestNumFilterBits: n ln(1/p) / (ln 2)^2 rounded up, up to the rounding errors, as long as it fits a uint64 by a margin *)
Theorem bloom_suggested_bits flog n p : log_near flog -> (1 <= n < 2 ^ 64)%N -> prob p -> best_bits n p <= 2 ^ 63 ->
  exists m, suggest_bits flog n p = Ans m /\ (1 <= m < 2 ^ 64)%N /\ rounds_up m (best_bits n p).
Proof.
  intros HL HN P HB. destruct (bits_q flog n p HL HN P) as (F & B0 & u & Nu & E). unfold near in Nu. assert (S : 0 < / 2 ^ 49 <= / 1024) by (cbn [pow]; lra).
  set (q := fdiv _ _) in *. set (b := best_bits n p) in *. assert (BQ : (1 - / 2 ^ 49) * b <= B2R q <= (1 + / 2 ^ 49) * b) by (rewrite E; split; nra).
  assert (U : (1 + / 2 ^ 49) * b <= 2 ^ 64 - 2). { assert ((1 + / 2 ^ 49) * b <= (1 + / 2 ^ 49) * 2 ^ 63) by (apply Rmult_le_compat_l; lra). assert ((1 + / 2 ^ 49) * 2 ^ 63 <= 2 ^ 64 - 2) by (cbn [pow]; lra). lra. }
  destruct (ceil_uint 64 q F) as (m & Em & M1 & M2). { split; [nra|]. replace (IZR (2 ^ 64)) with (2 ^ 64) by (cbn [pow]; change (2 ^ 64)%Z with 18446744073709551616%Z; lra). lra. }
  exists m. split; [exact Em|]. split; [split; auto|unfold rounds_up; lra].
  assert (L : valN m < 2 ^ 64) by lra. unfold valN in L. replace (2 ^ 64) with (IZR (2 ^ 64)) in L by (cbn [pow]; change (2 ^ 64)%Z with 18446744073709551616%Z; lra). apply lt_IZR in L. lia.
Qed.
(** When it does not fit a uint64, the number of bits is whatever the implementation makes of the conversion. *)
Theorem bloom_bits_overflow_refuted flog n p : log_near flog -> (1 <= n < 2 ^ 64)%N -> prob p -> 2 ^ 64 <= (1 - / 2 ^ 49) * best_bits n p ->
  suggest_bits flog n p = Unspecified /\ forall seed, by_accuracy flog n p seed = Unspecified.
Proof.
  intros HL HN P HB. destruct (bits_q flog n p HL HN P) as (F & B0 & u & Nu & E). unfold near in Nu.
  assert (X : suggest_bits flog n p = Unspecified).
  { unfold suggest_bits. apply ceil_uint_out; auto. rewrite E. replace (IZR (2 ^ 64)) with (2 ^ 64) by (cbn [pow]; change (2 ^ 64)%Z with 18446744073709551616%Z; lra). nra. }
  split; auto. intros seed. unfold by_accuracy. destruct (N.eqb_spec n 0); [lia|]. destruct P as (Fp & P0 & P1). destruct zero_val as (Z1 & Z2), one_val as (O1 & O2).
  assert (A1 : fle p f_zero = false) by (destruct (fle p f_zero) eqn:C; auto; apply fle_spec in C; auto; lra). assert (A2 : fle f_one p = false) by (destruct (fle f_one p) eqn:C; auto; apply fle_spec in C; auto; lra).
  rewrite A1, A2. cbn [orb]. rewrite X. reflexivity.
Qed.
Lemma size_ok n m : (1 <= n < 2 ^ 64)%N -> (m < 2 ^ 64)%N -> valN m / valN n * ln 2 <= 65000 ->
  exists k, suggest_hashes_size n m = Ans k /\ (1 <= k < 65535)%N /\ (1 - / 2 ^ 50) * (valN m / valN n * ln 2) <= valN k <= (1 + / 2 ^ 50) * (valN m / valN n * ln 2) + 1.
Proof.
  intros HN HM HX. unfold suggest_hashes_size. destruct (N.eqb_spec n 0); [lia|]. destruct (N.eq_dec m 0) as [->|Hm].
  - exists 1%N. destruct (of_N_fin n) as (Fn & _); [lia|]. pose proof (of_N_ge1 n ltac:(lia)) as G. destruct c2_spec as (Fl & El).
    assert (E0 : B2R (f_of_Z (Z.of_N 0)) = 0) by reflexivity.
    destruct (div_spec (f_of_Z (Z.of_N 0)) (f_of_Z (Z.of_N n)) 1) as (Ed & Fd & _); [lia|reflexivity|lra|rewrite E0; unfold Rdiv; rewrite Rmult_0_l, Rabs_R0; apply bpow_ge_0|].
    rewrite E0 in Ed. unfold Rdiv in Ed. rewrite Rmult_0_l, (rnd_id 0 fmt_0) in Ed.
    destruct (mul_spec (fdiv (f_of_Z (Z.of_N 0)) (f_of_Z (Z.of_N n))) f_ln2 1) as (Em & Fm & _); [lia|auto|auto|rewrite Ed, Rmult_0_l, Rabs_R0; apply bpow_ge_0|].
    rewrite Ed, Rmult_0_l, (rnd_id 0 fmt_0) in Em. destruct (ceil_spec _ Fm) as (Ec & Fc). rewrite Em, (Zceil_IZR 0) in Ec.
    rewrite (to_uint_spec 16 _ 0%Z Fc Ec) by lia. cbn [bind_a]. split; [reflexivity|]. split; [lia|]. unfold valN. change (IZR (Z.of_N 0)) with 0. change (IZR (Z.of_N 1)) with 1. unfold Rdiv. rewrite !Rmult_0_l, !Rmult_0_r. lra.
  - destruct (size_q n m HN ltac:(lia)) as (F & u & Nu & E). unfold near in Nu. assert (S : 0 < / 2 ^ 50 <= / 1048576) by (cbn [pow]; lra). set (q := fmul _ _) in *. set (x := valN m / valN n * ln 2) in *.
    assert (X0 : 0 < x). { pose proof ln2_range. unfold x, Rdiv. apply Rmult_lt_0_compat; [|lra]. apply Rmult_lt_0_compat; [apply (IZR_lt 0); lia|apply Rinv_0_lt_compat, (IZR_lt 0); lia]. }
    assert (BQ : (1 - / 2 ^ 50) * x <= B2R q <= (1 + / 2 ^ 50) * x) by (rewrite E; split; nra). assert (U : (1 + / 2 ^ 50) * x <= 65001) by nra.
    destruct (ceil_uint 16 q F) as (k & Ek & K1 & K2). { split; [nra|]. change (2 ^ 16)%Z with 65536%Z. lra. }
    rewrite Ek. cbn [bind_a]. destruct (N.eqb_spec k 0); [lia|]. exists k. split; auto. split; [|lra]. split; auto. assert (L : valN k < 65535) by lra. apply lt_IZR in L. lia.
Qed.
(** SuggestNumHashesFromSize: (m / n) ln 2 rounded up, at least one, as long as it fits a uint16 by a margin *)
Theorem bloom_suggested_hashes_from_size n m : (1 <= n < 2 ^ 64)%N -> (m < 2 ^ 64)%N -> valN m / valN n * ln 2 <= 65000 ->
  exists k, suggest_hashes_size n m = Ans k /\ (1 <= k < 65535)%N /\ rounds_up k (valN m / valN n * ln 2).
Proof.
  intros HN HM HX. destruct (size_ok n m HN HM HX) as (k & E & K & B). exists k. split; auto. split; auto. unfold rounds_up. assert (0 <= valN m / valN n * ln 2).
  { pose proof ln2_range. unfold Rdiv. apply Rmult_le_pos; [|lra]. apply Rmult_le_pos; [apply (IZR_le 0); lia|left; apply Rinv_0_lt_compat, (IZR_lt 0); lia]. }
  assert (/ 2 ^ 50 <= / 2 ^ 49) by (cbn [pow]; lra). nra.
Qed.
(** SuggestNumHashes: ln(1/p) / ln 2 rounded up *)
Theorem bloom_suggested_hashes flog p : log_near flog -> prob p -> exists k, suggest_hashes flog p = Ans k /\ (1 <= k <= 2200)%N /\ rounds_up k (best_hashes p).
Proof.
  intros HL P. destruct (hashes_q flog p HL P) as (F & u & Nu & E). unfold near in Nu. assert (S : 0 < / 2 ^ 49 <= / 1024) by (cbn [pow]; lra). set (q := fdiv _ _) in *. set (x := best_hashes p) in *.
  assert (X0 : 0 < x <= 2148). { destruct (ln_range p P) as (A & B). pose proof ln2_range. pose proof (bpow_gt_0 radix2 (-53)). unfold x, best_hashes, Rdiv. pose proof inv_ln2 as Il. split; [apply Rmult_lt_0_compat; lra|]. replace 2148 with (1074 * 2) by lra. apply Rmult_le_compat; lra. }
  assert (BQ : (1 - / 2 ^ 49) * x <= B2R q <= (1 + / 2 ^ 49) * x) by (rewrite E; split; nra). assert (U : (1 + / 2 ^ 49) * x <= 2151) by nra.
  destruct (ceil_uint 16 q F) as (k & Ek & K1 & K2). { split; [nra|]. change (2 ^ 16)%Z with 65536%Z. lra. }
  exists k. split; [exact Ek|]. split; [|unfold rounds_up; lra]. split; auto. assert (L : valN k <= 2200) by lra. apply le_IZR in L. lia.
Qed.
(** What NewBloomFilterByAccuracy decides for a valid n and p, in terms of the number of bits: m *)
Lemma accuracy_ok flog n p : log_near flog -> (1 <= n < 2 ^ 64)%N -> prob p -> best_bits n p <= 2 ^ 63 ->
  exists m k, (1 <= m < 2 ^ 64)%N /\ rounds_up m (best_bits n p) /\ (1 <= k < 65535)%N /\ (1 - / 2 ^ 48) * best_hashes p <= valN k <= (1 + / 2 ^ 48) * (best_hashes p + ln 2 / valN n) + 1 /\
    forall seed, by_accuracy flog n p seed = match new_bloom m k seed with Some f => Ans f | None => Refused end.
Proof.
  intros HL HN P HB. destruct (bloom_suggested_bits flog n p HL HN P HB) as (m & Em & Hm & RU). unfold rounds_up in RU. pose proof RU as RU'. assert (S49 : 0 < / 2 ^ 49 <= / 1048576) by (cbn [pow]; lra).
  pose proof ln2_range as R2. assert (N1 : 1 <= valN n) by (apply (IZR_le 1); lia). assert (In : 0 < / valN n <= 1) by (split; [apply Rinv_0_lt_compat; lra|rewrite <- Rinv_1; apply Rinv_le; lra]).
  destruct (ln_range p P) as (A & B). pose proof (bpow_gt_0 radix2 (-53)). pose proof inv_ln2 as Il.
  assert (H0 : 0 < best_hashes p <= 2148). { unfold best_hashes, Rdiv. split; [apply Rmult_lt_0_compat; lra|]. replace 2148 with (1074 * 2) by lra. apply Rmult_le_compat; lra. }
  assert (EQ : best_bits n p / valN n * ln 2 = best_hashes p) by (unfold best_bits, best_hashes; field; lra).
  set (h := best_hashes p) in *. set (c := ln 2 / valN n). assert (C0 : 0 < c <= 1). { unfold c, Rdiv. split; [apply Rmult_lt_0_compat; lra|]. replace 1 with (1 * 1) by lra. apply Rmult_le_compat; lra. }
  assert (XB : (1 - / 2 ^ 49) * h <= valN m / valN n * ln 2 <= (1 + / 2 ^ 49) * h + c).
  { rewrite <- EQ. unfold c, Rdiv. assert (T : 0 <= / valN n * ln 2) by (apply Rmult_le_pos; lra). split.
    - replace ((1 - / 2 ^ 49) * (best_bits n p * / valN n * ln 2)) with ((1 - / 2 ^ 49) * best_bits n p * (/ valN n * ln 2)) by ring. replace (valN m * / valN n * ln 2) with (valN m * (/ valN n * ln 2)) by ring. apply Rmult_le_compat_r; lra.
    - replace ((1 + / 2 ^ 49) * (best_bits n p * / valN n * ln 2) + ln 2 * / valN n) with (((1 + / 2 ^ 49) * best_bits n p + 1) * (/ valN n * ln 2)) by ring. replace (valN m * / valN n * ln 2) with (valN m * (/ valN n * ln 2)) by ring. apply Rmult_le_compat_r; lra. }
  destruct (size_ok n m HN (proj2 Hm)) as (k & Ek & Hk & KB); [nra|]. exists m, k. split; auto. split; auto. split; auto. split.
  - set (x := valN m / valN n * ln 2) in *. assert (S50 : / 2 ^ 50 = / 2 * / 2 ^ 49) by (cbn [pow]; lra). assert (S48 : / 2 ^ 48 = 2 * / 2 ^ 49) by (cbn [pow]; lra). rewrite S50 in KB. rewrite S48. set (e := / 2 ^ 49) in *. clearbody e x c h. split.
    + apply Rle_trans with ((1 - / 2 * e) * ((1 - e) * h)); [|apply Rle_trans with ((1 - / 2 * e) * x); [apply Rmult_le_compat_l; lra|lra]]. replace ((1 - / 2 * e) * ((1 - e) * h)) with ((1 - 3 / 2 * e + / 2 * (e * e)) * h) by field. apply Rmult_le_compat_r; nra.
    + apply Rle_trans with ((1 + / 2 * e) * ((1 + e) * h + c) + 1); [apply Rle_trans with ((1 + / 2 * e) * x + 1); [lra|apply Rplus_le_compat_r, Rmult_le_compat_l; lra]|]. apply Rplus_le_compat_r.
      assert ((1 + / 2 * e) * (1 + e) <= 1 + 2 * e) by nra. assert ((1 + / 2 * e) * (1 + e) * h <= (1 + 2 * e) * h) by (apply Rmult_le_compat_r; lra). assert ((1 + / 2 * e) * c <= (1 + 2 * e) * c) by (apply Rmult_le_compat_r; lra). lra.
  - intros seed. unfold by_accuracy. destruct (N.eqb_spec n 0); [lia|]. destruct P as (Fp & P0 & P1). destruct zero_val as (Z1 & Z2), one_val as (O1 & O2).
    assert (A1 : fle p f_zero = false) by (destruct (fle p f_zero) eqn:C; auto; apply fle_spec in C; auto; lra). assert (A2 : fle f_one p = false) by (destruct (fle f_one p) eqn:C; auto; apply fle_spec in C; auto; lra).
    rewrite A1, A2. cbn [orb]. rewrite Em. cbn [bind_a]. rewrite Ek. reflexivity.
Qed.
(** NewBloomFilterByAccuracy makes an empty filter of the textbook sizes whenever they are within the largest filter, with the seed given. *)
Theorem bloom_by_accuracy flog n p seed : log_near flog -> (1 <= n < 2 ^ 64)%N -> prob p -> (seed < 2 ^ 64)%N -> (1 + / 2 ^ 49) * best_bits n p + 1 <= valN max_bits ->
  exists f, by_accuracy flog n p seed = Ans f /\ bf_seed f = seed /\ (forall j, bit (bf_bits f) j = false) /\
    (bf_cap f mod 64 = 0)%N /\ (1 - / 2 ^ 49) * best_bits n p <= valN (bf_cap f) <= (1 + / 2 ^ 49) * best_bits n p + 65 /\
    (1 <= bf_hashes f)%N /\ (1 - / 2 ^ 48) * best_hashes p <= valN (bf_hashes f) <= (1 + / 2 ^ 48) * (best_hashes p + ln 2 / valN n) + 1.
Proof.
  intros HL HN P HS HB. assert (S49 : 0 < / 2 ^ 49 <= / 1024) by (cbn [pow]; lra). destruct (bits_q flog n p HL HN P) as (_ & B0 & _).
  assert (VM : valN max_bits = 137438953152) by reflexivity. destruct (accuracy_ok flog n p HL HN P) as (m & k & Hm & RU & Hk & KB & E); [rewrite VM in HB; assert (137438953152 <= 2 ^ 63) by (cbn [pow]; lra); nra|]. unfold rounds_up in RU.
  assert (ML : (m <= max_bits)%N) by (assert (L : valN m <= valN max_bits) by lra; apply le_IZR in L; lia). destruct (new_bloom_spec m k seed ltac:(lia) Hk HS) as (f & Ef & _ & F1 & F2 & F3 & F4).
  exists f. rewrite E, Ef. split; auto. split; auto. split; auto. split; [rewrite F3, N.mul_comm; apply N.mod_mul; lia|]. split; [|rewrite F2; split; [lia|exact KB]].
  assert (C : (m <= bf_cap f < m + 64)%N) by (rewrite F3; pose proof (N.div_mod (m + 63) 64); pose proof (N.mod_lt (m + 63) 64); lia). assert (C1 : valN m <= valN (bf_cap f)) by (apply IZR_le; lia). assert (C2 : valN (bf_cap f) <= valN m + 64) by (unfold valN; rewrite <- plus_IZR; apply IZR_le; lia). lra.
Qed.
(** It refuses no items, a target that is not strictly between 0 and 1, and sizes above the largest filter. *)
Theorem bloom_by_accuracy_refuses flog n p seed :
  (n = 0%N \/ fle p f_zero = true \/ fle f_one p = true \/
   log_near flog /\ (1 <= n < 2 ^ 64)%N /\ prob p /\ valN max_bits < (1 - / 2 ^ 49) * best_bits n p /\ best_bits n p <= 2 ^ 63) -> by_accuracy flog n p seed = Refused.
Proof.
  intros [->|[A|[A|(HL & HN & P & H1 & H2)]]]; [reflexivity| | |].
  - unfold by_accuracy. rewrite A. destruct (n =? 0)%N; reflexivity.
  - unfold by_accuracy. rewrite A, orb_true_r. destruct (n =? 0)%N; reflexivity.
  - destruct (accuracy_ok flog n p HL HN P H2) as (m & k & Hm & RU & Hk & KB & E). unfold rounds_up in RU. rewrite E. unfold new_bloom. destruct (N.eqb_spec m 0); [lia|]. destruct (N.eqb_spec k 0); [lia|].
    assert (L : valN max_bits < valN m) by lra. apply lt_IZR in L. destruct (N.ltb_spec max_bits m); [reflexivity|lia].
Qed.
(** A target that is not a number passes the range test; what follows is left to the implementation. *)
Theorem bloom_by_accuracy_nan_refuted flog n seed : (1 <= n)%N -> flog f_nan = f_nan -> by_accuracy flog n f_nan seed = Unspecified.
Proof.
  intros HN E. unfold by_accuracy. destruct (N.eqb_spec n 0); [lia|]. change (fle f_nan f_zero) with false. change (fle f_one f_nan) with false. cbn [orb]. unfold suggest_bits. rewrite E.
  replace (fmul (fneg (f_of_Z (Z.of_N n))) f_nan) with f_nan by (unfold fmul, f_nan; destruct (fneg _); reflexivity). reflexivity.
Qed.
(** More hash functions than a uint16 holds: SuggestNumHashesFromSize(1, 2^20) is left to the implementation, not capped. *)
Theorem bloom_hashes_overflow_refuted : suggest_hashes_size 1 (2 ^ 20) = Unspecified.
Proof. vm_compute. reflexivity. Qed.

(** ** Concrete cases *)
(** The correctly rounded logarithm meets [log_near]. *)
Definition rounded_log (p : f64) : f64 :=
  let y := rnd (ln (B2R p)) in
  binary_normalize 53 1024 _ _ mode_NE (Ztrunc (scaled_mantissa radix2 (SpecFloat.fexp 53 1024) y)) (cexp radix2 (SpecFloat.fexp 53 1024) y) false.
Lemma rounded_log_near : log_near rounded_log.
Proof.
  intros p P. destruct (ln_range p P) as (A & B). destruct bpow_num as (_ & B53). rewrite B53 in A. assert (S53 : 0 < / 2 ^ 53) by (cbn [pow]; lra). set (l := ln (B2R p)) in *. destruct (near_rnd l) as (u & Nu & E).
  { rewrite Rabs_left by lra. pose proof (small_bpow (-53) ltac:(lia) (- l)) as Q. rewrite B53, Rabs_pos_eq in Q by lra. apply Q. lra. }
  pose proof (binary_normalize_correct 53 1024 _ _ mode_NE (Ztrunc (scaled_mantissa radix2 (SpecFloat.fexp 53 1024) (rnd l))) (cexp radix2 (SpecFloat.fexp 53 1024) (rnd l)) false) as C. cbv zeta in C.
  assert (G : fmt (rnd l)) by (apply generic_format_round; typeclasses eauto). unfold generic_format in G. rewrite <- G in C. rewrite (rnd_id (rnd l)) in C by (apply generic_format_round; typeclasses eauto).
  rewrite (big_lt (rnd l) 11) in C; [|lia|].
  - destruct C as (C1 & C2 & _). split; [exact C2|].
    unfold rounded_log. fold l. cbv zeta. rewrite C1, E. replace (l * u - l) with (l * (u - 1)) by ring. rewrite Rabs_mult, Rmult_comm. apply Rmult_le_compat_r; [apply Rabs_pos|]. unfold near in Nu. apply Rabs_le. assert (/ 2 ^ 53 <= / 2 ^ 50) by (cbn [pow]; lra). lra.
  - rewrite E. rewrite Rabs_mult. unfold near in Nu. rewrite (Rabs_left l) by lra. rewrite (Rabs_pos_eq u) by (assert (/ 2 ^ 53 <= 1) by (cbn [pow]; lra); lra). replace (bpow radix2 11) with 2048 by (cbn; lra). assert (/ 2 ^ 53 <= / 2) by (cbn [pow]; lra). nra.
Qed.
(** The default filter: ten thousand items at one percent *)
Definition one_percent : f64 := fdiv (f_of_Z 1) (f_of_Z 100).
Example ex_default : log_near rounded_log /\ prob one_percent /\ (1 + / 2 ^ 49) * best_bits 10000 one_percent + 1 <= valN max_bits.
Proof.
  split; [apply rounded_log_near|]. assert (P : prob one_percent) by (split; [reflexivity|vm_compute; lra]). split; auto. destruct (ln_range _ P) as (A & B). pose proof ln2_range. pose proof (bpow_gt_0 radix2 (-53)). assert (VM : valN max_bits = 137438953152) by reflexivity. rewrite VM.
  assert (S : 0 < / 2 ^ 49 <= 1) by (cbn [pow]; lra). assert (U : best_bits 10000 one_percent <= 10000 * 1074 * 4).
  { unfold best_bits, Rdiv. change (valN 10000) with 10000. assert (/ (ln 2 * ln 2) <= 4) by (replace 4 with (/ / 4) by lra; apply Rinv_le; nra). assert (0 < / (ln 2 * ln 2)) by (apply Rinv_0_lt_compat; nra). apply Rmult_le_compat; try lra. }
  assert (0 <= best_bits 10000 one_percent). { unfold best_bits, Rdiv. change (valN 10000) with 10000. apply Rmult_le_pos; [lra|left; apply Rinv_0_lt_compat; nra]. }
  nra.
Qed.
Print Assumptions bloom_by_accuracy.
