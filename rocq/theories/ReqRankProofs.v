(** * The arithmetic of REQ's error bounds *)
From Coq Require Import ZArith Bool List Lia Lra Reals Floats.SpecFloat.
From Flocq Require Import Core BinarySingleNaN.
From Verif Require Import Base FloatModel FloatProofs RankModel RankProofs ReqRankModel.
Local Open Scope R_scope.

(** The constants meant *)
Definition REL : R := sqrt (512 / 30000).
Definition FIX : R := 84 / 1000.

Lemma fix_val : is_finite fix_rse = true /\ B2R fix_rse = 6052837899185947 * bpow radix2 (-56).
Proof.
  split; [vm_compute; reflexivity|].
  assert (E : B2SF fix_rse = S754_finite false 6052837899185947 (-56)) by (vm_compute; reflexivity).
  rewrite <- SF2R_B2SF, E. reflexivity.
Qed.
Lemma rel_val : is_finite rel_rse = true /\ B2R rel_rse = 4706782332947701 * bpow radix2 (-55).
Proof.
  split; [vm_compute; reflexivity|].
  assert (E : B2SF rel_rse = S754_finite false 4706782332947701 (-55)) by (vm_compute; reflexivity).
  rewrite <- SF2R_B2SF, E. reflexivity.
Qed.
Definition U : R := bpow radix2 (-57).
Lemma U_pos : 0 < U. Proof. apply bpow_gt_0. Qed.
Lemma U_small : U <= / 1000000000000000. Proof. unfold U. change (bpow radix2 (-57)) with (/ 144115188075855872). apply Rinv_le; lra. Qed.
Lemma bp_U e : bpow radix2 (e - 57) = bpow radix2 e * U.
Proof. unfold U. rewrite <- bpow_plus. f_equal. Qed.

Lemma fix_close : Rabs (B2R fix_rse - FIX) <= U.
Proof.
  destruct fix_val as (_ & ->). unfold FIX, U. change (bpow radix2 (-56)) with (/ 72057594037927936). change (bpow radix2 (-57)) with (/ 144115188075855872). apply Rabs_le. lra.
Qed.
Lemma rel_close : Rabs (B2R rel_rse - REL) <= 3 * U.
Proof.
  destruct rel_val as (_ & ->). unfold REL, U. change (bpow radix2 (-55)) with (/ 36028797018963968). change (bpow radix2 (-57)) with (/ 144115188075855872).
  assert (A : sqrt (512 / 30000) <= 4706782332947701 * / 36028797018963968 + 3 * / 144115188075855872).
  { rewrite <- (sqrt_square (4706782332947701 * / 36028797018963968 + 3 * / 144115188075855872)) by lra. apply sqrt_le_1; lra. }
  assert (B : 4706782332947701 * / 36028797018963968 - 3 * / 144115188075855872 <= sqrt (512 / 30000)).
  { rewrite <- (sqrt_square (4706782332947701 * / 36028797018963968 - 3 * / 144115188075855872)) by lra. apply sqrt_le_1; lra. }
  apply Rabs_le. lra.
Qed.
Lemma rel_range : 0.13 <= REL <= 0.131 /\ 0.13 <= B2R rel_rse <= 0.131.
Proof.
  pose proof rel_close as C. apply Rabs_le_inv in C. pose proof U_small. pose proof U_pos. 
  assert (0.13 <= B2R rel_rse - 3 * U /\ B2R rel_rse + 3 * U <= 0.131).
  { destruct rel_val as (_ & ->). unfold U. change (bpow radix2 (-55)) with (/ 36028797018963968). change (bpow radix2 (-57)) with (/ 144115188075855872). lra. }
  lra.
Qed.
Lemma fix_range : 0.08 <= FIX <= 0.09 /\ 0.08 <= B2R fix_rse <= 0.09.
Proof. pose proof fix_close as C. apply Rabs_le_inv in C. pose proof U_small. unfold FIX in *. lra. Qed.

(** A quotient by k *)
Lemma over_k (x : f64) X k : (4 <= k <= 1024)%Z -> is_finite x = true -> 0.08 <= X <= 0.131 -> 0.08 <= B2R x <= 0.131 -> Rabs (B2R x - X) <= 3 * U ->
  is_finite (fdiv x (f_of_Z k)) = true /\ 0 < B2R (fdiv x (f_of_Z k)) <= / 16 /\ Rabs (B2R (fdiv x (f_of_Z k)) - X / IZR k) <= 2 * U.
Proof.
  intros Hk Fx HX Hx HU. destruct (of_Z_val k) as (Ek & Fk); [lia|]. assert (K : 4 <= IZR k <= 1024) by (split; apply IZR_le; lia).
  assert (I : / 1024 <= / IZR k <= / 4) by (split; apply Rinv_le; lra).
  assert (P : / 1024 * 0.08 <= B2R x / IZR k <= / 16). { unfold Rdiv. split; nra. }
  destruct (div_spec x (f_of_Z k) (-4)) as (E & F & _); auto; try lia. { rewrite Ek. lra. }
  { rewrite Ek. rewrite Rabs_pos_eq by lra. change (bpow radix2 (-4)) with (/ 16). lra. }
  rewrite Ek in E. split; auto. rewrite E. split.
  - split.
    + apply Rlt_le_trans with (bpow radix2 (-20)); [apply bpow_gt_0|]. apply rnd_ge; [apply fmt_bpow; lia|]. change (bpow radix2 (-20)) with (/ 1048576). lra.
    + apply rnd_le_gen; [|apply P]. change (/ 16) with (bpow radix2 (-4)). apply fmt_bpow. lia.
  - assert (Er : Rabs (rnd (B2R x / IZR k) - B2R x / IZR k) <= U).
    { change U with (bpow radix2 (-4 - 53)). apply rnd_abs_err; [lia|]. rewrite Rabs_pos_eq by lra. change (bpow radix2 (-4)) with (/ 16). lra. }
    replace (rnd (B2R x / IZR k) - X / IZR k) with ((rnd (B2R x / IZR k) - B2R x / IZR k) + (B2R x - X) * / IZR k) by (unfold Rdiv; ring).
    apply Rabs_le_inv in Er, HU. apply Rabs_le. pose proof U_pos. split; nra.
Qed.

(** 1 - r, or r *)
Definition far (hra : bool) (r : R) : R := if hra then 1 - r else r.
Lemma far_ok (hra : bool) (r : f64) : is_finite r = true -> 0 <= B2R r <= 1 -> let w : f64 := if (hra : bool) then fsub f_one r else r in
  is_finite w = true /\ 0 <= B2R w <= 1 /\ B2R w = rnd (far hra (B2R r)) /\ Rabs (B2R w - far hra (B2R r)) <= 16 * U.
Proof.
  intros F B w. subst w. pose proof U_pos. destruct hra; cbn [far].
  - destruct one_val as (E1 & F1). destruct (sub_spec f_one r 0) as (E & Fs & _); auto; try lia. { rewrite E1. change (bpow radix2 0) with 1. rewrite Rabs_pos_eq; lra. }
    rewrite E1 in E. rewrite E. split; auto. split; [split; [apply rnd_nonneg; lra|apply rnd_le_gen; [apply (fmt_IZR 1); lia|lra]]|]. split; auto.
    replace (16 * U) with (bpow radix2 (0 - 53)) by (change (0 - 53)%Z with (4 - 57)%Z; rewrite bp_U; reflexivity). apply rnd_abs_err; [lia|]. change (bpow radix2 0) with 1. rewrite Rabs_pos_eq; lra.
  - split; auto. split; auto. split; [symmetry; apply rnd_id, fmt_B|]. rewrite Rminus_eq_0, Rabs_R0. lra.
Qed.

Lemma parts_ok k hra (r : f64) : (4 <= k <= 1024)%Z -> is_finite r = true -> 0 <= B2R r <= 1 ->
  (is_finite (relative_part k r hra) = true /\ 0 <= B2R (relative_part k r hra) <= / 16 /\ Rabs (B2R (relative_part k r hra) - REL / IZR k * far hra (B2R r)) <= 6 * U) /\
  (is_finite (fixed_part k) = true /\ 0 <= B2R (fixed_part k) <= / 16 /\ Rabs (B2R (fixed_part k) - FIX / IZR k) <= 6 * U).
Proof.
  intros Hk F B. pose proof U_pos as U0. pose proof U_small as US. pose proof rel_range as (RR1 & RR2). pose proof fix_range as (FR1 & FR2). split.
  - destruct (over_k rel_rse REL k Hk (proj1 rel_val) ltac:(lra) ltac:(lra) rel_close) as (Fq & Bq & Cq). destruct (far_ok hra r F B) as (Fw & Bw & _ & Cw).
    unfold relative_part. set (w := if hra then fsub f_one r else r) in *. set (q := fdiv rel_rse (f_of_Z k)) in *.
    assert (K : 4 <= IZR k <= 1024) by (split; apply IZR_le; lia). assert (I : / 1024 <= / IZR k <= / 4) by (split; apply Rinv_le; lra).
    assert (Q : 0 <= REL / IZR k <= / 16) by (unfold Rdiv; split; nra).
    assert (P : 0 <= B2R q * B2R w <= / 16) by (split; nra).
    destruct (mul_spec q w (-4)) as (E & Fm & _); auto; try lia. { rewrite Rabs_pos_eq by lra. change (bpow radix2 (-4)) with (/ 16). lra. }
    split; auto. rewrite E. split; [split; [apply rnd_nonneg; lra|apply rnd_le_gen; [change (/ 16) with (bpow radix2 (-4)); apply fmt_bpow; lia|lra]]|].
    assert (Er : Rabs (rnd (B2R q * B2R w) - B2R q * B2R w) <= U).
    { change U with (bpow radix2 (-4 - 53)). apply rnd_abs_err; [lia|]. rewrite Rabs_pos_eq by lra. change (bpow radix2 (-4)) with (/ 16). lra. }
    set (W := far hra (B2R r)) in *. set (Q0 := REL / IZR k) in *.
    replace (rnd (B2R q * B2R w) - Q0 * W) with ((rnd (B2R q * B2R w) - B2R q * B2R w) + ((B2R q - Q0) * B2R w + Q0 * (B2R w - W))) by ring.
    apply Rabs_le_inv in Er. assert (A1 : Rabs ((B2R q - Q0) * B2R w) <= 2 * U). { rewrite Rabs_mult, (Rabs_pos_eq (B2R w)) by lra. pose proof (Rabs_pos (B2R q - Q0)). nra. }
    assert (A2 : Rabs (Q0 * (B2R w - W)) <= U). { rewrite Rabs_mult, (Rabs_pos_eq Q0) by lra. pose proof (Rabs_pos (B2R w - W)). nra. }
    apply Rabs_le_inv in A1, A2. apply Rabs_le. lra.
  - destruct (over_k fix_rse FIX k Hk (proj1 fix_val) ltac:(lra) ltac:(lra) ltac:(pose proof fix_close; lra)) as (Fq & Bq & Cq). unfold fixed_part. split; auto. split; [lra|]. lra.
Qed.

(** A number of standard deviations of it, added to or taken off the rank *)
Lemma times_sd (p : f64) P sd : (0 <= sd <= 3)%Z -> is_finite p = true -> 0 <= B2R p <= / 16 -> Rabs (B2R p - P) <= 6 * U ->
  is_finite (fmul (f_of_Z sd) p) = true /\ 0 <= B2R (fmul (f_of_Z sd) p) <= / 4 /\ Rabs (B2R (fmul (f_of_Z sd) p) - IZR sd * P) <= 22 * U.
Proof.
  intros Hs F B C. destruct (of_Z_val sd) as (Es & Fs); [lia|]. assert (S : 0 <= IZR sd <= 3) by (split; apply IZR_le; lia).
  assert (Pr : 0 <= IZR sd * B2R p <= / 4) by (split; nra).
  destruct (mul_spec (f_of_Z sd) p (-2)) as (E & Fm & _); auto; try lia. { rewrite Es, Rabs_pos_eq by lra. change (bpow radix2 (-2)) with (/ 4). lra. }
  rewrite Es in E. split; auto. rewrite E. split; [split; [apply rnd_nonneg; lra|apply rnd_le_gen; [change (/ 4) with (bpow radix2 (-2)); apply fmt_bpow; lia|lra]]|].
  assert (Er : Rabs (rnd (IZR sd * B2R p) - IZR sd * B2R p) <= 4 * U).
  { replace (4 * U) with (bpow radix2 (-2 - 53)) by (change (-2 - 53)%Z with (2 - 57)%Z; rewrite bp_U; reflexivity).
    apply rnd_abs_err; [lia|]. rewrite Rabs_pos_eq by lra. change (bpow radix2 (-2)) with (/ 4). lra. }
  replace (rnd (IZR sd * B2R p) - IZR sd * P) with ((rnd (IZR sd * B2R p) - IZR sd * B2R p) + IZR sd * (B2R p - P)) by ring.
  apply Rabs_le_inv in Er, C. pose proof U_pos. apply Rabs_le. split; nra.
Qed.
Lemma off_ok (r d : f64) D : is_finite r = true -> 0 <= B2R r <= 1 -> is_finite d = true -> 0 <= B2R d <= / 4 -> Rabs (B2R d - D) <= 22 * U ->
  (is_finite (fsub r d) = true /\ B2R (fsub r d) <= B2R r /\ B2R (fsub r d) = rnd (B2R r - B2R d) /\ Rabs (B2R (fsub r d) - (B2R r - D)) <= 54 * U) /\
  (is_finite (fadd r d) = true /\ B2R r <= B2R (fadd r d) /\ B2R (fadd r d) = rnd (B2R r + B2R d) /\ Rabs (B2R (fadd r d) - (B2R r + D)) <= 54 * U).
Proof.
  intros Fr Br Fd Bd C. pose proof U_pos.
  assert (E32 : 32 * U = bpow radix2 (1 - 53)) by (change (1 - 53)%Z with (5 - 57)%Z; rewrite bp_U; reflexivity). split.
  - destruct (sub_spec r d 1) as (E & F & _); auto; try lia. { change (bpow radix2 1) with 2. apply Rabs_le. lra. }
    split; auto. rewrite E. split; [apply rnd_le_gen; [apply fmt_B|lra]|]. split; auto.
    assert (Er : Rabs (rnd (B2R r - B2R d) - (B2R r - B2R d)) <= 32 * U) by (rewrite E32; apply rnd_abs_err; [lia|]; change (bpow radix2 1) with 2; apply Rabs_le; lra).
    apply Rabs_le_inv in Er, C. apply Rabs_le. lra.
  - destruct (add_spec r d 1) as (E & F & _); auto; try lia. { change (bpow radix2 1) with 2. apply Rabs_le. lra. }
    split; auto. rewrite E. split; [apply rnd_ge; [apply fmt_B|lra]|]. split; auto.
    assert (Er : Rabs (rnd (B2R r + B2R d) - (B2R r + B2R d)) <= 32 * U) by (rewrite E32; apply rnd_abs_err; [lia|]; change (bpow radix2 1) with 2; apply Rabs_le; lra).
    apply Rabs_le_inv in Er, C. apply Rabs_le. lra.
Qed.

(** Greater and lesser of two finite numbers *)
Lemma fmax_val (x y : f64) : is_finite x = true -> is_finite y = true -> is_finite (fmax x y) = true /\ B2R (fmax x y) = Rmax (B2R x) (B2R y).
Proof.
  intros Fx Fy. destruct (fmax_spec x y (finite_not_nan _ Fx) (finite_not_nan _ Fy)) as (_ & A & B & D). destruct D as [D|D]; rewrite D in *; split; auto.
  - apply fle_spec in B; auto. rewrite Rmax_left; auto.
  - apply fle_spec in A; auto. rewrite Rmax_right; auto.
Qed.
Lemma fmin_val (x y : f64) : is_finite x = true -> is_finite y = true -> is_finite (fmin x y) = true /\ B2R (fmin x y) = Rmin (B2R x) (B2R y).
Proof.
  intros Fx Fy. destruct (fmin_spec x y (finite_not_nan _ Fx) (finite_not_nan _ Fy)) as (_ & A & B & D). destruct D as [D|D]; rewrite D in *; split; auto.
  - apply fle_spec in B; auto. rewrite Rmin_left; auto.
  - apply fle_spec in A; auto. rewrite Rmin_right; auto.
Qed.

(** Different fractions of n stay apart. *)
Lemma frac_close c n : (0 < n < 2 ^ 47)%N -> (c <= n)%N -> Rabs (B2R (norm_rank c n) - IZR (Z.of_N c) / IZR (Z.of_N n)) <= 16 * U.
Proof.
  intros Hn Hc. rewrite norm_rank_val by lia.
  replace (16 * U) with (bpow radix2 (0 - 53)) by (change (0 - 53)%Z with (4 - 57)%Z; rewrite bp_U; reflexivity). apply rnd_abs_err; [lia|]. change (bpow radix2 0) with 1.
  assert (1 <= IZR (Z.of_N n)) by (apply IZR_le; lia). assert (0 <= IZR (Z.of_N c) <= IZR (Z.of_N n)) by (split; apply IZR_le; lia).
  assert (0 <= IZR (Z.of_N c) / IZR (Z.of_N n) <= 1); [|rewrite Rabs_pos_eq; lra]. split; [apply Rmult_le_pos; [lra|]; apply Rlt_le, Rinv_0_lt_compat; lra|].
  apply Rmult_le_reg_r with (IZR (Z.of_N n)); [lra|]. unfold Rdiv. rewrite Rmult_assoc, Rinv_l by lra. lra.
Qed.
Lemma step_big n : (0 < n < 2 ^ 47)%N -> 1000 * U <= / IZR (Z.of_N n).
Proof.
  intros Hn. assert (1 <= IZR (Z.of_N n)) by (apply IZR_le; lia). assert (IZR (Z.of_N n) <= bpow radix2 47) by (change (bpow radix2 47) with (IZR (2 ^ 47)); apply IZR_le; lia).
  apply Rle_trans with (/ bpow radix2 47); [|apply Rinv_le; lra]. rewrite <- bpow_opp. change (- (47))%Z with (10 - 57)%Z. rewrite bp_U. change (bpow radix2 10) with 1024. pose proof U_pos. lra.
Qed.
(** The test of exactness is the one on integers, but for the rank exactly 3k from the top in high-rank accuracy mode. *)
Lemma exact_test k levels c n hra : (4 <= k <= 1024)%Z -> (0 < n < 2 ^ 47)%N -> (c <= n)%N ->
  (hra = true -> Z.of_N c + 3 * k <> Z.of_N n)%Z ->
  exact_rank64 k levels (norm_rank c n) hra (Z.of_N n) = ((levels =? 1) || (Z.of_N n <=? 3 * k) || (if hra then Z.of_N n <=? Z.of_N c + 3 * k else Z.of_N c <=? 3 * k))%Z.
Proof.
  intros Hk Hn Hc Hedge. unfold exact_rank64, init_sections. replace (k * 3)%Z with (3 * k)%Z by ring.
  destruct ((levels =? 1) || (Z.of_N n <=? 3 * k))%Z eqn:E0; auto. cbn [orb]. apply orb_false_iff in E0. destruct E0 as (_ & E0). apply Z.leb_gt in E0.
  set (b := Z.to_N (3 * k)). assert (Eb : (3 * k)%Z = Z.of_N b) by (unfold b; lia). rewrite Eb in *. change (fdiv (f_of_Z (Z.of_N b)) (f_of_Z (Z.of_N n))) with (norm_rank b n).
  destruct (norm_rank_spec c n) as (Fc & _ & Bc); try lia. destruct (norm_rank_spec b n) as (Fb & _ & Bb); try lia.
  pose proof (frac_close c n Hn Hc) as Cc. pose proof (frac_close b n Hn ltac:(lia)) as Cb. pose proof (step_big n Hn) as St. pose proof U_pos as U0.
  assert (N1 : 1 <= IZR (Z.of_N n)) by (apply IZR_le; lia). apply Rabs_le_inv in Cc, Cb. destruct hra.
  - destruct (far_ok true (norm_rank b n) Fb Bb) as (Fw & Bw & _ & Cw). cbn [far] in Cw. apply Rabs_le_inv in Cw.
    destruct (Z.leb_spec (Z.of_N n) (Z.of_N c + Z.of_N b)) as [L|L].
    + apply fle_spec; auto. specialize (Hedge eq_refl). assert (IZR (Z.of_N n) + 1 <= IZR (Z.of_N c) + IZR (Z.of_N b)) by (rewrite <- !plus_IZR; apply IZR_le; lia).
      assert (1 + / IZR (Z.of_N n) <= IZR (Z.of_N c) / IZR (Z.of_N n) + IZR (Z.of_N b) / IZR (Z.of_N n)).
      { apply Rmult_le_reg_r with (IZR (Z.of_N n)); [lra|]. unfold Rdiv. rewrite !Rmult_plus_distr_r, !Rmult_assoc, !Rinv_l by lra. lra. }
      lra.
    + destruct (fle (fsub f_one (norm_rank b n)) (norm_rank c n)) eqn:E; auto. exfalso. apply fle_spec in E; auto.
      assert (IZR (Z.of_N c) + IZR (Z.of_N b) + 1 <= IZR (Z.of_N n)) by (rewrite <- !plus_IZR; apply IZR_le; lia).
      assert (IZR (Z.of_N c) / IZR (Z.of_N n) + IZR (Z.of_N b) / IZR (Z.of_N n) + / IZR (Z.of_N n) <= 1).
      { apply Rmult_le_reg_r with (IZR (Z.of_N n)); [lra|]. unfold Rdiv. rewrite !Rmult_plus_distr_r, !Rmult_assoc, !Rinv_l by lra. lra. }
      lra.
  - destruct (Z.leb_spec (Z.of_N c) (Z.of_N b)) as [L|L].
    + apply fle_spec; auto. apply norm_rank_mono; lia.
    + destruct (fle (norm_rank c n) (norm_rank b n)) eqn:E; auto. exfalso. apply fle_spec in E; auto.
      assert (IZR (Z.of_N b) + 1 <= IZR (Z.of_N c)) by (rewrite <- !plus_IZR; apply IZR_le; lia).
      assert (IZR (Z.of_N b) / IZR (Z.of_N n) + / IZR (Z.of_N n) <= IZR (Z.of_N c) / IZR (Z.of_N n)).
      { apply Rmult_le_reg_r with (IZR (Z.of_N n)); [lra|]. unfold Rdiv. rewrite !Rmult_plus_distr_r, !Rmult_assoc, !Rinv_l by lra. lra. }
      lra.
Qed.
