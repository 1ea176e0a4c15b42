(** * The loops of the exact binomial tails end (internal/binomialbounds/binomialbounds.go specialNStar, specialNPrimeB).

    The sums approach the probability that the n-th success of independent trials has come, from below and up to
    rounding, and that probability exceeds every limit the loops are called with after some 11000 terms. *)
From Coq Require Import ZArith NArith Reals List Bool Psatz.
From Flocq Require Import Core BinarySingleNaN.
From Verif Require Import Base BitPackModel HashtableModel FloatModel FloatProofs EstimateModel.
Local Open Scope R_scope.

(** ** Independent trials with probability p *)
Section Trials.
Variable p : R.
Hypothesis Hp : 0 <= p <= 1.
Let q := 1 - p.
(** Exactly [i] successes in [M] trials; fewer than [n] *)
Fixpoint exactly (M i : nat) : R :=
  match M, i with
  | O, O => 1
  | O, S _ => 0
  | S M', O => q * exactly M' O
  | S M', S i' => q * exactly M' (S i') + p * exactly M' i'
  end.
Fixpoint fewer (M n : nat) : R :=
  match M, n with
  | _, O => 0
  | O, S _ => 1
  | S M', S n' => q * fewer M' (S n') + p * fewer M' n'
  end.

Lemma exactly_S0 M : exactly (S M) 0 = q * exactly M 0. Proof. reflexivity. Qed.
Lemma exactly_SS M i : exactly (S M) (S i) = q * exactly M (S i) + p * exactly M i. Proof. reflexivity. Qed.
Lemma exactly_nonneg M i : 0 <= exactly M i.
Proof.
  revert i. induction M as [|M IH]; intros [|i]; cbn [exactly]; try lra.
  - apply Rmult_le_pos; [unfold q; lra|apply IH].
  - apply Rplus_le_le_0_compat; apply Rmult_le_pos; try apply IH; unfold q; lra.
Qed.
Lemma exactly_more M i : (M < i)%nat -> exactly M i = 0.
Proof.
  revert i. induction M as [|M IH]; intros [|i] H; cbn [exactly]; try lia; auto. rewrite !IH by lia. lra.
Qed.
Lemma exactly_all i : exactly i i = p ^ i.
Proof. induction i as [|i IH]; auto. rewrite exactly_SS, IH, exactly_more by lia. cbn [pow]. lra. Qed.
Lemma fewer_range M n : 0 <= fewer M n <= 1.
Proof.
  revert n. induction M as [|M IH]; intros [|n]; cbn [fewer]; try lra.
  pose proof (IH (S n)). pose proof (IH n). unfold q. nra.
Qed.
Lemma fewer_S M n : fewer M (S n) = fewer M n + exactly M n.
Proof.
  revert n. induction M as [|M IH]; intros [|n].
  - cbn. lra.
  - cbn. lra.
  - cbn [fewer exactly]. rewrite IH. replace (fewer M 0) with 0 by (destruct M; reflexivity). lra.
  - cbn [fewer]. rewrite exactly_SS. rewrite (IH (S n)), (IH n). lra.
Qed.
(** The n-th success comes at trial M+1. *)
Lemma fewer_step M n : fewer M (S n) - fewer (S M) (S n) = p * exactly M n.
Proof. cbn [fewer]. rewrite fewer_S. unfold q. lra. Qed.
Lemma fewer_tail M n : fewer M n <= 2 ^ n * (1 - p / 2) ^ M.
Proof.
  revert n. induction M as [|M IH]; intros [|n].
  - cbn. lra.
  - cbn [fewer]. change ((1 - p / 2) ^ 0) with 1. rewrite Rmult_1_r. apply pow_R1_Rle. lra.
  - replace (fewer (S M) 0) with 0 by reflexivity. apply Rmult_le_pos; apply pow_le; lra.
  - cbn [fewer]. pose proof (IH (S n)) as A. pose proof (IH n) as B. change (2 ^ S n) with (2 * 2 ^ n) in *.
    change ((1 - p / 2) ^ S M) with ((1 - p / 2) * (1 - p / 2) ^ M).
    assert (0 <= q) by (unfold q; lra). unfold q in *. nra.
Qed.
Lemma exactly_ratios M : (forall i, (INR M + 1 - INR i) * exactly (S M) i = q * (INR M + 1) * exactly M i) /\
  (forall i, q * (INR i + 1) * exactly M (S i) = p * (INR M - INR i) * exactly M i).
Proof.
  induction M as [|M (IH1 & IH2)].
  - assert (J : forall i, q * (INR i + 1) * exactly 0 (S i) = p * (INR 0 - INR i) * exactly 0 i).
    { intros [|i]; cbn [exactly]; [change (INR 0) with 0; lra|lra]. }
    split; auto. intros [|i]. { rewrite exactly_S0. change (INR 0) with 0. lra. }
    rewrite exactly_SS. specialize (J i). rewrite S_INR. change (INR 0) with 0 in *. cbn [exactly] in *. lra.
  - assert (J : forall i, q * (INR i + 1) * exactly (S M) (S i) = p * (INR (S M) - INR i) * exactly (S M) i).
    { intros i. rewrite S_INR. specialize (IH2 i). specialize (IH1 i). rewrite exactly_SS.
      replace (p * (INR M + 1 - INR i) * exactly (S M) i) with (p * ((INR M + 1 - INR i) * exactly (S M) i)) by lra.
      rewrite IH1. replace (q * (INR i + 1) * (q * exactly M (S i) + p * exactly M i)) with
        (q * (q * (INR i + 1) * exactly M (S i)) + q * (INR i + 1) * p * exactly M i) by lra. rewrite IH2. lra. }
    split; auto. intros [|i].
    + rewrite exactly_S0. change (INR 0) with 0. lra.
    + rewrite exactly_SS. specialize (J i). rewrite !S_INR in *.
      replace ((INR M + 1 + 1 - (INR i + 1)) * (q * exactly (S M) (S i) + p * exactly (S M) i)) with
        ((INR M + 1 - INR i) * q * exactly (S M) (S i) + p * (INR M + 1 - INR i) * exactly (S M) i) by lra.
      rewrite <- J. lra.
Qed.
End Trials.

Lemma fewer_one p M n : (M < n)%nat -> fewer p M n = 1.
Proof. revert n. induction M as [|M IH]; intros [|n] H; cbn [fewer]; try lia; auto. rewrite !IH by lia. lra. Qed.

(** ** Rounding *)
Definition w := 1 - bpow radix2 (-53).
Lemma w_range : 1 / 2 <= w <= 1.
Proof.
  unfold w. pose proof (bpow_gt_0 radix2 (-53)). assert (bpow radix2 (-53) <= bpow radix2 (-1)) by (apply bpow_le; lia).
  change (bpow radix2 (-1)) with (/ 2) in *. lra.
Qed.
Lemma rnd_low x : bpow radix2 (-1022) <= x -> x * w <= rnd x.
Proof.
  intros H. pose proof (bpow_gt_0 radix2 (-1022)). destruct (rnd_rel x) as (e & A & B). { rewrite Rabs_pos_eq; lra. }
  rewrite B. apply Rabs_le_inv in A. unfold w. nra.
Qed.
Lemma w_pow k : (Z.of_nat k <= 100000)%Z -> 1 - bpow radix2 (-30) <= w ^ k <= 1.
Proof.
  intros H. pose proof w_range as W. split.
  - assert (B : forall j, 1 - INR j * bpow radix2 (-53) <= w ^ j).
    { induction j as [|j IH]; [cbn; lra|]. rewrite S_INR. change (w ^ S j) with (w * w ^ j). unfold w at 1.
      assert (w ^ j <= 1) by (rewrite <- (pow1 j); apply pow_incr; lra). pose proof (bpow_gt_0 radix2 (-53)).
      assert (0 <= w ^ j) by (apply pow_le; lra). nra. }
    eapply Rle_trans; [|apply B]. assert (INR k <= bpow radix2 23).
    { change (bpow radix2 23) with (IZR (2 ^ 23)). rewrite INR_IZR_INZ. apply IZR_le. lia. }
    change (-30)%Z with (23 + -53)%Z. rewrite bpow_plus. pose proof (bpow_gt_0 radix2 (-53)). nra.
  - rewrite <- (pow1 k). apply pow_incr. lra.
Qed.

Lemma mul_val x y a b : bnd x a -> bnd y b -> (-1074 <= a + b < 1024)%Z -> B2R (fmul x y) = rnd (B2R x * B2R y).
Proof.
  intros (Fx & Lx & Ux) (Fy & Ly & Uy) H. apply (mul_spec x y (a + b)); auto. rewrite Rabs_pos_eq by nra. rewrite bpow_plus.
  apply Rmult_le_compat; auto.
Qed.
Lemma div_val x y a b : bnd x a -> is_finite y = true -> bpow radix2 b <= B2R y -> (-1074 <= a - b < 1024)%Z -> B2R (fdiv x y) = rnd (B2R x / B2R y).
Proof.
  intros (Fx & Lx & Ux) Fy Ly H. pose proof (bpow_gt_0 radix2 b). apply (div_spec x y (a - b)); auto; [lra|].
  assert (0 < / B2R y) by (apply Rinv_0_lt_compat; lra). rewrite Rabs_pos_eq by (apply Rmult_le_pos; lra).
  unfold Zminus. rewrite bpow_plus, bpow_opp. apply Rmult_le_compat; auto; [lra|]. apply Rinv_le; auto.
Qed.

Section Loop.
Variable pf : f64.
Variable i : nat.
Let P := B2R pf.
Let q := 1 - P.
Let n := N.of_nat (S i).
Let qf := fsub f_one pf.
Hypothesis HF : is_finite pf = true.
Hypothesis HP : 0 < P.
Hypothesis Hq : bpow radix2 (-20) <= q.
Hypothesis Hi : (i <= 200)%nat.
Definition eta := bpow radix2 (-900).
Definition e0 := bpow radix2 (-20).
Definition kap (j : nat) : R := (1 - e0) * w ^ (5 * (j - i)).
Definition term (j : nat) : R := P * exactly P j i.

Record Inv (j : nat) (cur tot : f64) : Prop := {
  iv_j : (i <= j)%nat;
  iv_fc : is_finite cur = true;
  iv_ft : is_finite tot = true;
  iv_ct : 0 <= B2R cur <= B2R tot;
  iv_lo : bpow radix2 (-400) <= B2R tot;
  iv_sum : kap j * (1 - fewer P (S j) (S i)) - INR (j - i) * eta <= B2R tot;
  iv_term : (kap j * term j <= B2R cur /\ eta <= term j) \/ (term j < eta /\ q * INR j < INR j - INR i);
}.

Lemma q_one : 0 < q < 1.
Proof. unfold q in *. pose proof (bpow_gt_0 radix2 (-20)). lra. Qed.
Lemma one_val' : B2R f_one = 1.
Proof. destruct (of_Z_spec 1 0) as (E & _); try lia. unfold f_one. rewrite E. apply (rnd_id 1). apply fmt_IZR. lia. Qed.
Lemma qf_spec : bnd qf 0 /\ q * w <= B2R qf.
Proof.
  pose proof q_one as Q. destruct (sub_spec f_one pf 0) as (E & F & B); try lia; auto.
  { rewrite one_val'. fold P. fold q. change (bpow radix2 0) with 1. rewrite Rabs_pos_eq; lra. }
  fold qf in E, F, B. rewrite one_val' in E. fold P in E. fold q in E.
  assert (L : q * w <= B2R qf). { rewrite E. apply rnd_low. eapply Rle_trans; [|exact Hq]. apply bpow_le. lia. }
  split; auto. split; auto. pose proof w_range. assert (0 <= B2R qf) by nra. rewrite Rabs_pos_eq in B; auto.
Qed.
Lemma kap_range j : (i <= j)%nat -> (Z.of_nat j <= 15000)%Z -> 1 / 2 <= kap j <= 1 /\ kap (S j) = kap j * w ^ 5.
Proof.
  intros Hj H. destruct (w_pow (5 * (j - i))) as (A & B); [lia|]. pose proof w_range as W.
  assert (E1 : e0 <= / 4) by (change (/ 4) with (bpow radix2 (-2)); apply bpow_le; lia). pose proof (bpow_gt_0 radix2 (-20)) as E2. fold e0 in E2.
  assert (E3 : bpow radix2 (-30) <= / 4) by (change (/ 4) with (bpow radix2 (-2)); apply bpow_le; lia).
  split. { unfold kap. nra. }
  unfold kap. replace (5 * (S j - i))%nat with (5 * (j - i) + 5)%nat by lia. rewrite pow_add. lra.
Qed.

Definition next_term (m : N) (cur : f64) : f64 := fdiv (fmul (fmul cur qf) (f_of_N m)) (f_of_N (m + 1 - n)).

Lemma nat_val k : (Z.of_nat k <= 20000)%Z -> bnd (f_of_N (N.of_nat k)) 15 /\ B2R (f_of_N (N.of_nat k)) = INR k.
Proof.
  intros H. unfold f_of_N. rewrite nat_N_Z. split; [apply of_Z_bnd; lia|].
  destruct (of_Z_spec (Z.of_nat k) 15) as (E & _); try lia. rewrite E, INR_IZR_INZ. apply rnd_id. apply fmt_IZR. lia.
Qed.

Lemma step j cur tot : Inv j cur tot -> (Z.of_nat j <= 14000)%Z -> B2R tot <= 1 ->
  let cur' := next_term (N.of_nat (S j)) cur in Inv (S j) cur' (fadd tot cur').
Proof.
  intros I Hj T1 cur'. destruct I. destruct qf_spec as (Bq & Lq). pose proof q_one as Q. pose proof w_range as W.
  destruct (kap_range j iv_j0 ltac:(lia)) as (K1 & K2).
  assert (Bc : bnd cur 0) by (split; auto; change (bpow radix2 0) with 1; lra).
  assert (Bt : bnd tot 0) by (split; auto; change (bpow radix2 0) with 1; pose proof (bpow_gt_0 radix2 (-400)); lra).
  destruct (nat_val (S j) ltac:(lia)) as (Bm & Vm). destruct (nat_val (S (j - i)) ltac:(lia)) as (Bd & Vd).
  assert (En : (N.of_nat (S j) + 1 - n)%N = N.of_nat (S (j - i))) by (unfold n; lia).
  assert (D1 : 1 <= INR (S (j - i))) by (rewrite S_INR; pose proof (pos_INR (j - i)); lra).
  assert (M1 : 1 <= INR (S j) <= bpow radix2 15).
  { split; [rewrite S_INR; pose proof (pos_INR j); lra|]. rewrite <- Vm. apply Bm. }
  pose proof (mul_bnd cur qf 0 0 Bc Bq ltac:(lia)) as Bx1.
  pose proof (mul_bnd (fmul cur qf) (f_of_N (N.of_nat (S j))) (0 + 0) 15 Bx1 Bm ltac:(lia)) as Bx2.
  assert (Bx3 : bnd cur' 15).
  { unfold cur', next_term. rewrite En. apply (div_bnd _ _ 15 0); auto; [apply Bd|rewrite Vd; exact D1|lia]. }
  assert (Bt' : bnd (fadd tot cur') 16). { apply (add_bnd _ _ 15); auto; [|lia]. apply bnd_weaken with 0%Z; auto. lia. }
  assert (Vt : B2R (fadd tot cur') = rnd (B2R tot + B2R cur')).
  { apply (add_spec tot cur' 16); try lia; auto; [apply Bx3|]. rewrite Rabs_pos_eq by (destruct Bx3; lra).
    change 16%Z with (15 + 1)%Z. rewrite bpow_plus. change (bpow radix2 1) with 2. destruct Bx3 as (_ & X). destruct Bt as (_ & Y).
    assert (bpow radix2 0 <= bpow radix2 15) by (apply bpow_le; lia). lra. }
  (* the ratio of successive terms *)
  assert (Rt : INR (S (j - i)) * term (S j) = q * INR (S j) * term j).
  { destruct (exactly_ratios P j) as (R1 & _). specialize (R1 i). fold q in R1. rewrite !S_INR, minus_INR by auto. unfold term.
    replace ((INR j - INR i + 1) * (P * exactly P (S j) i)) with (P * ((INR j + 1 - INR i) * exactly P (S j) i)) by lra. rewrite R1. lra. }
  assert (Pt : forall k, 0 <= term k). { intros k. unfold term. apply Rmult_le_pos; [lra|]. apply exactly_nonneg. unfold q in Q. lra. }
  pose proof (bpow_gt_0 radix2 (-900)) as Pe. fold eta in Pe.
  assert (Dj : INR (S (j - i)) = INR (S j) - INR i) by (rewrite !S_INR, minus_INR by auto; lra).
  assert (C : (kap j * w ^ 4 * term (S j) <= B2R cur' /\ eta <= term (S j)) \/ (term (S j) < eta /\ q * INR (S j) < INR (S j) - INR i)).
  { destruct (Rlt_or_le (term (S j)) eta) as [Sm|Sm].
    - right. split; auto. destruct iv_term0 as [(A & B)|(A & B)].
      + assert (q * INR (S j) * term j < INR (S (j - i)) * term j).
        { rewrite <- Rt. apply Rmult_lt_compat_l; [lra|]. lra. }
        rewrite <- Dj. apply Rmult_lt_reg_r with (term j); auto. lra.
      + rewrite S_INR. lra.
    - left. split; auto. destruct iv_term0 as [(A & B)|(A & B)].
      2:{ exfalso. assert (q * INR (S j) <= INR (S (j - i))) by (rewrite Dj, S_INR; lra).
          assert (INR (S (j - i)) * term (S j) <= INR (S (j - i)) * term j) by (rewrite Rt; apply Rmult_le_compat_r; auto).
          assert (term (S j) <= term j) by nra. lra. }
      set (y := kap j * term j * (q * w)).
      assert (ty : y * INR (S j) = kap j * w * (INR (S (j - i)) * term (S j))) by (rewrite Rt; unfold y; lra).
      assert (y0 : y <= B2R cur * B2R qf).
      { unfold y. apply Rmult_le_compat; auto; [|nra]. apply Rmult_le_pos; [lra|apply Pt]. }
      assert (l1 : eta * / 4 <= y * INR (S j)). { rewrite ty. assert (1 * eta <= INR (S (j - i)) * term (S j)) by (apply Rmult_le_compat; lra). 
        assert (1 / 4 <= kap j * w) by nra. nra. }
      assert (Ee : eta * / 4 = bpow radix2 (-902)) by (unfold eta; change (-902)%Z with (-900 + -2)%Z; rewrite bpow_plus; reflexivity).
      assert (l2 : bpow radix2 (-917) <= y).
      { apply Rmult_le_reg_r with (INR (S j)); [lra|]. eapply Rle_trans; [|exact l1]. rewrite Ee.
        change (-902)%Z with (-917 + 15)%Z. rewrite bpow_plus. apply Rmult_le_compat_l; [apply bpow_ge_0|]. apply M1. }
      assert (small : forall e x, (-1019 <= e)%Z -> bpow radix2 e <= x -> bpow radix2 (-1022) <= x * w * w * w).
      { intros e x He Hx. assert (bpow radix2 (-1022) <= bpow radix2 e * / 8).
        { change (/ 8) with (bpow radix2 (-3)). rewrite <- bpow_plus. apply bpow_le. lia. }
        pose proof (bpow_gt_0 radix2 e). assert (/ 8 <= w * w * w). { assert (/ 4 <= w * w) by nra. nra. }
        replace (x * w * w * w) with (x * (w * w * w)) by lra. eapply Rle_trans; [exact H|]. apply Rmult_le_compat; lra. }
      assert (drop : forall x, 0 <= x -> x * w <= x) by (intros; nra).
      assert (y1 : 0 < y) by (pose proof (bpow_gt_0 radix2 (-917)); lra).
      assert (x1 : y * w <= B2R (fmul cur qf)).
      { rewrite (mul_val cur qf 0 0) by (auto; lia). apply Rle_trans with (B2R cur * B2R qf * w); [nra|]. apply rnd_low.
        eapply Rle_trans; [apply (small (-917)%Z y); [lia|auto]|]. assert (0 <= y * w) by nra. assert (0 <= y * w * w) by nra.
        pose proof (drop _ H). pose proof (drop _ H0). pose proof (drop y). lra. }
      assert (z0 : 0 <= y * INR (S j)) by nra.
      assert (x2 : y * INR (S j) * w * w <= B2R (fmul (fmul cur qf) (f_of_N (N.of_nat (S j))))).
      { rewrite (mul_val _ _ (0 + 0) 15) by (auto; lia). rewrite Vm.
        assert (a1 : y * INR (S j) * w <= B2R (fmul cur qf) * INR (S j)).
        { replace (y * INR (S j) * w) with (y * w * INR (S j)) by lra. apply Rmult_le_compat_r; lra. }
        apply Rle_trans with (B2R (fmul cur qf) * INR (S j) * w); [apply Rmult_le_compat_r; lra|]. apply rnd_low.
        eapply Rle_trans; [apply (small (-902)%Z (y * INR (S j))); [lia|lra]|]. assert (0 <= y * INR (S j) * w) by nra. assert (0 <= y * INR (S j) * w * w) by nra.
        pose proof (drop _ H). pose proof (drop _ H0). lra. }
      unfold cur', next_term. rewrite En. rewrite (div_val _ _ (0 + 0 + 15) 0); auto; [|apply Bd|rewrite Vd; exact D1|lia]. rewrite Vd.
      set (d := INR (S (j - i))) in *. assert (Di : 0 < / d) by (apply Rinv_0_lt_compat; lra).
      assert (a2 : kap j * w * w * w * term (S j) <= B2R (fmul (fmul cur qf) (f_of_N (N.of_nat (S j)))) / d).
      { apply Rle_trans with (y * INR (S j) * w * w / d); [|apply Rmult_le_compat_r; lra]. rewrite ty. right. field. lra. }
      apply Rle_trans with (B2R (fmul (fmul cur qf) (f_of_N (N.of_nat (S j)))) / d * w).
      { replace (kap j * w ^ 4 * term (S j)) with (kap j * w * w * w * term (S j) * w) by (cbn [pow]; lra). apply Rmult_le_compat_r; lra. }
      apply rnd_low. eapply Rle_trans; [apply (small (-901)%Z (kap j * term (S j))); [lia|]|].
      { assert (E2 : bpow radix2 (-901) = / 2 * eta) by (unfold eta; change (-901)%Z with (-1 + -900)%Z; rewrite bpow_plus; reflexivity).
        rewrite E2. apply Rmult_le_compat; lra. }
      lra. }
  assert (Ct : B2R cur' <= B2R (fadd tot cur')). { rewrite Vt. apply rnd_ge; [apply fmt_B|]. destruct Bt as (_ & X). lra. }
  assert (Tt : B2R tot <= B2R (fadd tot cur')). { rewrite Vt. apply rnd_ge; [apply fmt_B|]. destruct Bx3 as (_ & X). lra. }
  destruct (kap_range (S j) ltac:(lia) ltac:(lia)) as (K3 & _).
  assert (W4 : 0 <= w ^ 4 <= 1). { split; [apply pow_le; lra|]. rewrite <- (pow1 4). apply pow_incr. lra. }
  assert (K4 : kap (S j) <= kap j * w ^ 4). { rewrite K2. change (w ^ 5) with (w * w ^ 4). assert (w * w ^ 4 <= w ^ 4) by nra. nra. }
  constructor; auto; try lia; try apply Bx3; try apply Bt'.
  - split; [apply Bx3|exact Ct].
  - lra.
  - (* the sum *)
    assert (Sp : 1 - fewer P (S (S j)) (S i) = 1 - fewer P (S j) (S i) + term (S j)).
    { pose proof (fewer_step P (S j) i). unfold term. lra. }
    rewrite Sp. replace (S j - i)%nat with (S (j - i)) by lia. rewrite S_INR.
    assert (F1 : 0 <= 1 - fewer P (S j) (S i)). { pose proof (fewer_range P ltac:(unfold q in Q; lra) (S j) (S i)). lra. }
    assert (Low : (B2R tot + B2R cur') * w <= B2R (fadd tot cur')).
    { rewrite Vt. apply rnd_low. assert (bpow radix2 (-1022) <= bpow radix2 (-400)) by (apply bpow_le; lia). destruct Bx3 as (_ & X). lra. }
    pose proof (pos_INR (j - i)) as Pj. pose proof (Pt (S j)) as Pj1. destruct Bx3 as (_ & Bx3).
    assert (G1 : kap (S j) * (1 - fewer P (S j) (S i)) - INR (j - i) * eta <= B2R tot * w).
    { apply Rle_trans with ((kap j * (1 - fewer P (S j) (S i)) - INR (j - i) * eta) * w); [|apply Rmult_le_compat_r; lra].
      assert (kap (S j) <= kap j * w).
      { rewrite K2. change (w ^ 5) with (w * w ^ 4). apply Rmult_le_compat_l; [lra|]. set (w4 := w ^ 4) in *. nra. }
      assert (kap (S j) * (1 - fewer P (S j) (S i)) <= kap j * w * (1 - fewer P (S j) (S i))) by (apply Rmult_le_compat_r; auto).
      assert (INR (j - i) * eta * w <= INR (j - i) * eta). { assert (0 <= INR (j - i) * eta) by nra. nra. } nra. }
    assert (G2 : kap (S j) * term (S j) - eta <= B2R cur' * w).
    { destruct C as [(C1 & C2)|(C1 & C2)].
      - apply Rle_trans with (kap j * w ^ 4 * term (S j) * w); [|apply Rmult_le_compat_r; lra].
        rewrite K2. change (w ^ 5) with (w * w ^ 4). lra.
      - apply Rle_trans with 0; [|apply Rmult_le_pos; lra]. nra. }
    nra.
  - destruct C as [(C1 & C2)|(C1 & C2)]; [left|right; auto]. split; auto. eapply Rle_trans; [|exact C1]. apply Rmult_le_compat_r; auto.
Qed.

Definition limit := 1 - bpow radix2 (-10) - bpow radix2 (-12).
Lemma at_end j cur tot : Inv j cur tot -> (Z.of_nat j <= 14000)%Z -> fewer P (S j) (S i) <= bpow radix2 (-10) -> limit < B2R tot.
Proof.
  intros I Hj T. destruct I. destruct (w_pow (5 * (j - i))) as (A & _); [lia|].
  assert (N1 : INR (j - i) <= bpow radix2 14). { change (bpow radix2 14) with (IZR (2 ^ 14)). rewrite INR_IZR_INZ. apply IZR_le. lia. }
  assert (E1 : INR (j - i) * eta <= bpow radix2 (-20)).
  { apply Rle_trans with (bpow radix2 14 * eta); [apply Rmult_le_compat_r; auto; apply bpow_ge_0|]. unfold eta. rewrite <- bpow_plus. apply bpow_le. lia. }
  assert (E2 : bpow radix2 (-30) <= bpow radix2 (-20)) by (apply bpow_le; lia).
  assert (V20 : bpow radix2 (-20) = / 1048576) by reflexivity. assert (V10 : bpow radix2 (-10) = / 1024) by reflexivity.
  assert (V12 : bpow radix2 (-12) = / 4096) by reflexivity.
  unfold limit. assert (K : 1 - 2 * bpow radix2 (-20) <= kap j) by (unfold kap, e0; nra).
  assert (kap j * (1 - bpow radix2 (-10)) <= kap j * (1 - fewer P (S j) (S i))) by (apply Rmult_le_compat_l; lra). nra.
Qed.

Lemma nstar_ends J delta : (Z.of_nat J <= 14000)%Z -> fewer P (S J) (S i) <= bpow radix2 (-10) ->
  is_finite delta = true -> B2R delta <= limit ->
  forall k j cur tot fuel, (j + k = J)%nat -> (k < fuel)%nat -> Inv j cur tot -> nstar_loop fuel n qf delta cur tot (N.of_nat (S j)) <> None.
Proof.
  intros HJ T Fd Hd. assert (L1 : limit <= 1). { unfold limit. pose proof (bpow_ge_0 radix2 (-10)). pose proof (bpow_ge_0 radix2 (-12)). lra. }
  induction k as [|k IH]; intros j cur tot [|fuel] E Hf I; try lia; cbn [nstar_loop]; destruct (fle tot delta) eqn:C; try discriminate.
  - exfalso. assert (j = J) by lia. subst j. pose proof (at_end _ _ _ I HJ T). apply fle_spec in C; [lra|apply I|auto].
  - apply fle_spec in C; [|apply I|auto]. replace (N.of_nat (S j) + 1)%N with (N.of_nat (S (S j))) by lia.
    apply IH; try lia. replace (N.of_nat (S (S j)))%N with (N.of_nat (S j) + 1)%N by lia. apply (step j cur tot); auto; [lia|lra].
Qed.
Lemma nprime_ends J omd : (Z.of_nat J <= 14000)%Z -> fewer P (S J) (S i) <= bpow radix2 (-10) ->
  is_finite omd = true -> B2R omd <= limit ->
  forall k j cur tot fuel, (j + k = J)%nat -> (k < fuel)%nat -> Inv j cur tot -> nprime_loop fuel n qf omd cur tot (N.of_nat (S j)) <> None.
Proof.
  intros HJ T Fd Hd. assert (L1 : limit <= 1). { unfold limit. pose proof (bpow_ge_0 radix2 (-10)). pose proof (bpow_ge_0 radix2 (-12)). lra. }
  induction k as [|k IH]; intros j cur tot [|fuel] E Hf I; try lia; cbn [nprime_loop]; destruct (flt tot omd) eqn:C; try discriminate.
  - exfalso. assert (j = J) by lia. subst j. pose proof (at_end _ _ _ I HJ T). apply flt_spec in C; [lra|apply I|auto].
  - apply flt_spec in C; [|apply I|auto]. replace (N.of_nat (S j) + 1)%N with (N.of_nat (S (S j))) by lia.
    apply IH; try lia. replace (N.of_nat (S (S j)))%N with (N.of_nat (S j) + 1)%N by lia. apply (step j cur tot); auto; [lia|lra].
Qed.

Lemma start cur : is_finite cur = true -> (1 - e0) * P ^ S i <= B2R cur -> bpow radix2 (-300) <= P ^ S i -> Inv i cur cur.
Proof.
  intros F L B. assert (K : kap i = 1 - e0). { unfold kap. replace (5 * (i - i))%nat with 0%nat by lia. change (w ^ 0) with 1. lra. }
  assert (T : term i = P ^ S i) by (unfold term; rewrite exactly_all; reflexivity).
  assert (Fw : 1 - fewer P (S i) (S i) = P ^ S i).
  { pose proof (fewer_step P i i) as X. rewrite fewer_one in X by lia. rewrite exactly_all in X. change (P ^ S i) with (P * P ^ i). lra. }
  assert (E1 : e0 <= / 2) by (change (/ 2) with (bpow radix2 (-1)); apply bpow_le; lia).
  assert (B4 : bpow radix2 (-400) <= B2R cur).
  { eapply Rle_trans; [|exact L]. apply Rle_trans with (/ 2 * bpow radix2 (-300)); [|apply Rmult_le_compat; try lra; apply bpow_ge_0].
    change (/ 2) with (bpow radix2 (-1)). rewrite <- bpow_plus. apply bpow_le. lia. }
  pose proof (bpow_ge_0 radix2 (-400)).
  constructor; auto; try lra.
  - rewrite K, Fw, Nat.sub_diag. change (INR 0) with 0. lra.
  - left. rewrite K, T. split; auto. eapply Rle_trans; [|exact B]. apply bpow_le. lia.
Qed.
End Loop.

(** ** The tail is small after at most 14000 trials. *)
Lemma half_power x k : 0 < x < 1 -> 1 <= INR k * x -> (1 - x) ^ k <= / 2.
Proof.
  intros Hx H. pose proof (poly k x (proj1 Hx)) as B. assert (A : (1 - x) ^ k * (1 + x) ^ k <= 1).
  { rewrite <- Rpow_mult_distr. apply Rle_trans with (1 ^ k); [apply pow_incr; nra|rewrite pow1; lra]. }
  assert (0 <= (1 - x) ^ k) by (apply pow_le; lra). nra.
Qed.
Definition trial_check (n0 : nat) : bool :=
  let k := (65536 / (73 * Z.of_nat n0) + 1)%Z in (65536 <=? k * (73 * Z.of_nat n0))%Z && (k * (Z.of_nat n0 + 11) <=? 14000)%Z && (1 <=? k)%Z.
Lemma trial_ok : forallb trial_check (seq 1 120) = true.
Proof. vm_compute. reflexivity. Qed.
Lemma tail_small P n0 i : 0 < P < 1 -> (1 <= n0 <= 120)%nat -> S i = n0 \/ S i = S n0 -> 73 * INR n0 / 32768 <= P ->
  exists J, (i <= J)%nat /\ (Z.of_nat J <= 14000)%Z /\ fewer P (S J) (S i) <= bpow radix2 (-10).
Proof.
  intros HP Hn Hi L. pose proof trial_ok as C. rewrite forallb_forall in C. specialize (C n0 ltac:(apply in_seq; lia)).
  unfold trial_check in C. cbv zeta in C. apply andb_prop in C. destruct C as (C & C3). apply andb_prop in C. destruct C as (C1 & C2).
  apply Z.leb_le in C1, C2, C3. set (kz := (65536 / (73 * Z.of_nat n0) + 1)%Z) in *. set (k := Z.to_nat kz).
  assert (Ek : Z.of_nat k = kz) by lia. clearbody kz.
  assert (K1 : (1 <= k)%nat) by lia.
  exists (k * (i + 11) - 1)%nat. split; [nia|]. split; [nia|].
  replace (S (k * (i + 11) - 1)) with (k * (i + 11))%nat by nia.
  eapply Rle_trans; [apply fewer_tail; lra|]. rewrite pow_mult.
  assert (X : (1 - P / 2) ^ k <= / 2).
  { apply half_power; [lra|]. apply IZR_le in C1. rewrite <- Ek, !mult_IZR, <- !INR_IZR_INZ in C1.
    assert (1 <= INR k) by (change 1 with (INR 1); apply le_INR; auto). nra. }
  assert (Y : ((1 - P / 2) ^ k) ^ (i + 11) <= (/ 2) ^ (i + 11)). { apply pow_incr. split; auto. apply pow_le. lra. }
  apply Rle_trans with (2 ^ S i * (/ 2) ^ (i + 11)). { apply Rmult_le_compat_l; auto. apply pow_le. lra. }
  replace (i + 11)%nat with (S i + 10)%nat by lia. rewrite pow_add, <- Rmult_assoc, <- Rpow_mult_distr.
  replace (2 * / 2) with 1 by lra. rewrite pow1. change (bpow radix2 (-10)) with (/ 1024). cbn [pow]. lra.
Qed.
