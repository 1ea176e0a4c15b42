(** * The ICON estimate inverts the expected number of coupons *)
From Coq Require Import ZArith Reals Rpower Bool Psatz.
From Flocq Require Import Core Relative BinarySingleNaN.
From Verif Require Import Base Bytes Arr FloatModel FloatProofs RankProofs HllEstModel HllEstProofs HllEstCoupon HllEstHip HllEstComp CpcEstTables CpcEstModel CpcEstKxp CpcEstConf CpcEstValue CpcIconBands.
From Coq Require Import Rdefinitions.
Local Open Scope R_scope.

(** ** Expected coupons per row of r*K distinct items: the columns 0 .. n-1 *)
Fixpoint cov (n : nat) (r : R) : R := match n with O => 0 | S m => cov m r + (1 - exp (- (r / 2 ^ n))) end.
Lemma exp_neg_le a b : a <= b -> exp (- b) <= exp (- a).
Proof. intros H. destruct (Rle_lt_or_eq_dec a b H) as [L| ->]; [left; apply exp_increasing; lra|lra]. Qed.
Lemma exp_neg_1 a : 0 <= a -> 0 < exp (- a) <= 1.
Proof. intros H. split; [apply exp_pos|]. rewrite <- exp_0. replace 0 with (- 0) by ring. apply exp_neg_le; auto. Qed.
Lemma two_pos n : 0 < 2 ^ n. Proof. apply pow_lt; lra. Qed.
Lemma div_pos a n : 0 <= a -> 0 <= a / 2 ^ n.
Proof. intros H. apply Rmult_le_pos; auto. apply Rlt_le, Rinv_0_lt_compat, two_pos. Qed.
Lemma div_le a b n : a <= b -> a / 2 ^ n <= b / 2 ^ n.
Proof. intros H. apply Rmult_le_compat_r; auto. apply Rlt_le, Rinv_0_lt_compat, two_pos. Qed.
Lemma cov_le n : forall r r', r <= r' -> cov n r <= cov n r'.
Proof. induction n as [|n IH]; intros r r' H; cbn [cov]; [lra|]. pose proof (IH r r' H). pose proof (exp_neg_le _ _ (div_le r r' (S n) H)). lra. Qed.
Lemma cov_more n k r : 0 <= r -> cov n r <= cov (n + k) r.
Proof. intros H. induction k as [|k IH]; [rewrite Nat.add_0_r; lra|]. rewrite Nat.add_succ_r. cbn [cov]. pose proof (exp_neg_1 _ (div_pos r (S (n + k)) H)). lra. Qed.
Lemma exp_lin t : 1 - exp (- t) <= t.
Proof. pose proof (exp_ineq1_le (- t)). lra. Qed.
Lemma cov_tail n k r : 0 <= r -> cov (n + k) r <= cov n r + r / 2 ^ n - r / 2 ^ (n + k).
Proof.
  intros H. induction k as [|k IH]; [rewrite Nat.add_0_r; lra|]. rewrite Nat.add_succ_r. cbn [cov]. pose proof (exp_lin (r / 2 ^ S (n + k))) as E.
  replace (r / 2 ^ (n + k)) with (2 * (r / 2 ^ S (n + k))) in IH by (cbn [pow]; pose proof (two_pos (n + k)); field; lra). lra.
Qed.
Lemma cov_le_r n r : 0 <= r -> cov n r <= r.
Proof. intros H. pose proof (cov_tail 0 n r H) as C. cbn [Nat.add cov pow] in C. pose proof (div_pos r n H). lra. Qed.
Lemma cov_double n r : cov (S n) (2 * r) = (1 - exp (- r)) + cov n r.
Proof.
  induction n as [|n IH]; [cbn [cov pow]; replace (2 * r / (2 * 1)) with r by field; lra|]. change (cov (S (S n)) (2 * r)) with (cov (S n) (2 * r) + (1 - exp (- (2 * r / 2 ^ S (S n))))). rewrite IH. cbn [cov].
  replace (2 * r / 2 ^ S (S n)) with (r / 2 ^ S n) by (cbn [pow]; pose proof (two_pos n); field; lra). lra.
Qed.
Lemma concave s t : 0 < s <= t -> (1 - exp (- t)) * s <= (1 - exp (- s)) * t.
Proof.
  intros H. set (z := exp (- s)). assert (Z : 0 < z) by apply exp_pos. assert (A : z * (1 - (t - s)) <= exp (- t)). { replace (- t) with (- s + - (t - s)) by ring. rewrite exp_plus. fold z. apply Rmult_le_compat_l; [lra|]. pose proof (exp_ineq1_le (- (t - s))). lra. }
  assert (B : z * (1 + s) <= 1). { replace 1 with (z * exp s) at 2 by (unfold z; rewrite <- exp_plus; replace (- s + s) with 0 by ring; apply exp_0). apply Rmult_le_compat_l; [lra|]. pose proof (exp_ineq1_le s). lra. }
  assert (C : s * (z * (1 - (t - s))) <= s * exp (- t)) by (apply Rmult_le_compat_l; lra). assert (D : (t - s) * (z * (1 + s)) <= (t - s) * 1) by (apply Rmult_le_compat_l; lra).
  assert (E : s * (z * (1 - (t - s))) + (t - s) * (z * (1 + s)) = z * t) by ring. lra.
Qed.
Lemma cov_ratio n s r : 0 < s <= r -> cov n r * s <= cov n s * r.
Proof.
  intros H. induction n as [|n IH]; cbn [cov]; [lra|]. pose proof (two_pos (S n)) as P. assert (I : 0 < / 2 ^ S n) by (apply Rinv_0_lt_compat; auto).
  assert (Q : 0 < s / 2 ^ S n <= r / 2 ^ S n) by (split; [apply Rmult_lt_0_compat; lra|apply div_le; lra]). pose proof (concave _ _ Q) as C. set (es := exp (- (s / 2 ^ S n))) in *. set (er := exp (- (r / 2 ^ S n))) in *.
  assert (C' : (1 - er) * s <= (1 - es) * r). { apply Rmult_le_reg_r with (/ 2 ^ S n); auto. unfold Rdiv in C. lra. } lra.
Qed.

(** ** Bounds by fixed point squaring, unit 1/P *)
Fixpoint sq_loop (P : Z) (n : nat) (a b : Z) : Z * Z :=
  match n with O => (0, 0)%Z | S m => let q := sq_loop P m (a * a / P) (b * b / P + 1) in (P - b + fst q, P - a + snd q)%Z end.
Lemma sq_loop_ok P : (0 < P)%Z -> forall n a b r, (0 <= a)%Z -> IZR a / IZR P <= exp (- (r / 2 ^ n)) <= IZR b / IZR P ->
  IZR (fst (sq_loop P n a b)) / IZR P <= cov n r <= IZR (snd (sq_loop P n a b)) / IZR P.
Proof.
  intros HP. assert (PP : 0 < IZR P) by (apply IZR_lt; auto). induction n as [|n IH]; intros a b r Ha B; [cbn [sq_loop fst snd cov]; unfold Rdiv; rewrite Rmult_0_l; lra|].
  cbn [sq_loop]. cbv zeta. set (q := sq_loop P n _ _) in *. cbn [fst snd cov]. rewrite !plus_IZR, !minus_IZR. set (E := exp (- (r / 2 ^ S n))) in *.
  assert (SQ : exp (- (r / 2 ^ n)) = E * E). { unfold E. rewrite <- exp_plus. f_equal. cbn [pow]. pose proof (two_pos n). field. lra. }
  assert (PE : 0 < E) by apply exp_pos. assert (A0 : 0 <= IZR a) by (apply IZR_le; auto). assert (I : 0 < / IZR P) by (apply Rinv_0_lt_compat; auto).
  assert (EP1 : IZR a <= E * IZR P). { apply Rmult_le_reg_r with (/ IZR P); auto. rewrite Rmult_assoc, Rinv_r by lra. unfold Rdiv in B. lra. } assert (EP2 : E * IZR P <= IZR b). { apply Rmult_le_reg_r with (/ IZR P); auto. rewrite Rmult_assoc, Rinv_r by lra. unfold Rdiv in B. lra. }
  assert (X : IZR a * IZR a <= E * IZR P * (E * IZR P) <= IZR b * IZR b) by (split; apply Rmult_le_compat; lra).
  assert (Q1 : IZR (a * a / P) * IZR P <= IZR a * IZR a) by (rewrite <- !mult_IZR; apply IZR_le; pose proof (Z.mul_div_le (a * a) P HP); lia).
  assert (Q2 : IZR b * IZR b <= IZR (b * b / P + 1) * IZR P) by (rewrite <- !mult_IZR; apply IZR_le; pose proof (Z.mul_succ_div_gt (b * b) P HP); lia).
  specialize (IH (a * a / P)%Z (b * b / P + 1)%Z r ltac:(apply Z.div_pos; lia)). fold q in IH. rewrite SQ in IH.
  assert (G : forall v, IZR v / IZR P = IZR v * / IZR P) by reflexivity.
  destruct IH as (L & U).
  - split; apply Rmult_le_reg_r with (IZR P * IZR P); try (apply Rmult_lt_0_compat; lra).
    + replace (IZR (a * a / P) / IZR P * (IZR P * IZR P)) with (IZR (a * a / P) * IZR P) by (field; lra). lra.
    + replace (IZR (b * b / P + 1) / IZR P * (IZR P * IZR P)) with (IZR (b * b / P + 1) * IZR P) by (field; lra). lra.
  - unfold Rdiv in *. rewrite !Rmult_plus_distr_r, !Rmult_minus_distr_r, Rinv_r by lra. lra.
Qed.
(** [R] is r * 2^24 *)
Definition P60 : Z := 1152921504606846976%Z.
Definition cov_lo (R : Z) : Z := fst (sq_loop P60 30 (P60 - R * 64) (P60 - R * 64 + (R * R / 562949953421312 + 1))).
Definition cov_hi (R : Z) : Z := (snd (sq_loop P60 30 (P60 - R * 64) (P60 - R * 64 + (R * R / 562949953421312 + 1))) + R * 64)%Z.
Lemma exp_quad t : 0 <= t -> exp (- t) <= 1 - t + t * t / 2.
Proof.
  intros H. assert (E : exp (- t) * exp t = 1) by (rewrite <- exp_plus; replace (- t + t) with 0 by ring; apply exp_0).
  assert (G : 1 + t + t * t / 2 <= exp t).
  { destruct (Rle_lt_or_eq_dec 0 t H) as [L|<-]; [|rewrite exp_0; lra].
    assert (D : exp t = exp (t / 2) * exp (t / 2)) by (rewrite <- exp_plus; f_equal; field). destruct (MVT_cor2 (fun x => exp x - x - x * x / 2) (fun x => exp x - 1 - x) 0 t L) as (c & Ec & Hc).
    - intros x _. assert (DX : derivable_pt_lim (fun x => exp x - x - x * x / 2) x (exp x - 1 - (1 * x + x * 1) * / 2)).
      { apply (derivable_pt_lim_minus (fun x => exp x - x) (fun x => x * x / 2)); [apply (derivable_pt_lim_minus exp (fun x => x)); [apply derivable_pt_lim_exp|apply derivable_pt_lim_id]|].
        replace (1 * x + x * 1) with ((1 * x + x * 1)) by ring. replace ((1 * x + x * 1) * / 2) with ((1 * x + x * 1) * / 2 + x * x * 0) by ring. apply (derivable_pt_lim_mult (fun x => x * x) (fun _ => / 2)); [apply (derivable_pt_lim_mult (fun x => x) (fun x => x)); apply derivable_pt_lim_id|apply derivable_pt_lim_const]. }
      replace (exp x - 1 - x) with (exp x - 1 - (1 * x + x * 1) * / 2) by field. exact DX.
    - rewrite exp_0 in Ec. pose proof (exp_ineq1_le c). assert (0 <= (exp c - 1 - c) * (t - 0)) by (apply Rmult_le_pos; lra). lra. }
  assert (P : 0 < exp (- t)) by apply exp_pos. apply Rmult_le_reg_r with (1 + t + t * t / 2); [nra|]. apply Rle_trans with 1.
  - rewrite <- E. apply Rmult_le_compat_l; lra.
  - assert (0 <= t * t * (t * t)) by (apply Rmult_le_pos; nra). nra.
Qed.
#[local] Opaque sq_loop.
Lemma cov_start P R r : (0 < P)%Z -> 0 <= IZR R -> r / 2 ^ 30 = IZR R * 64 / IZR P -> forall b, IZR R * 64 * (IZR R * 64) / (2 * IZR P) <= b - (IZR P - IZR R * 64) ->
  (IZR P - IZR R * 64) / IZR P <= exp (- (r / 2 ^ 30)) <= b / IZR P.
Proof.
  intros HP R0 -> b Hb. assert (PP : 0 < IZR P) by (apply IZR_lt; auto). assert (I : 0 < / IZR P) by (apply Rinv_0_lt_compat; auto). set (t := IZR R * 64 / IZR P). assert (t0 : 0 <= t) by (apply Rmult_le_pos; lra).
  pose proof (exp_ineq1_le (- t)) as E1. pose proof (exp_quad t t0) as E2. assert (A : (IZR P - IZR R * 64) / IZR P = 1 - t) by (unfold t; field; lra). split; [lra|]. eapply Rle_trans; [exact E2|].
  replace (1 - t + t * t / 2) with ((IZR P - IZR R * 64 + IZR R * 64 * (IZR R * 64) / (2 * IZR P)) / IZR P) by (unfold t; field; lra). apply Rmult_le_compat_r; lra.
Qed.
Lemma cov_wrap P R n r L U : (0 < P)%Z -> 0 <= r -> r / 2 ^ 30 = IZR R * 64 / IZR P -> (30 <= n)%nat -> IZR L / IZR P <= cov 30 r <= IZR U / IZR P -> IZR L / IZR P <= cov n r <= IZR (U + R * 64) / IZR P.
Proof.
  intros HP r0 T Hn (L1 & U1). pose proof (cov_more 30 (n - 30) r r0) as C1. pose proof (cov_tail 30 (n - 30) r r0) as C2. replace (30 + (n - 30))%nat with n in C1, C2 by lia. pose proof (div_pos r n r0). split; [lra|].
  rewrite plus_IZR, mult_IZR. unfold Rdiv at 1. rewrite Rmult_plus_distr_r. unfold Rdiv in U1, T. rewrite <- T. unfold Rdiv in *. lra.
Qed.
Lemma cov_bounds_gen P R n r c : (0 < P)%Z -> (0 <= R)%Z -> (64 * R <= P)%Z -> (30 <= n)%nat -> r / 2 ^ 30 = IZR R * 64 / IZR P -> 0 <= r -> IZR R * 64 * (IZR R * 64) / (2 * IZR P) <= IZR c ->
  IZR (fst (sq_loop P 30 (P - R * 64) (P - R * 64 + c))) / IZR P <= cov n r <= IZR (snd (sq_loop P 30 (P - R * 64) (P - R * 64 + c)) + R * 64) / IZR P.
Proof.
  intros HP HR HRP Hn T r0 Hc. apply cov_wrap; auto. apply sq_loop_ok; auto; [lia|]. rewrite plus_IZR, minus_IZR, mult_IZR. apply cov_start; auto; [apply IZR_le; auto|lra].
Qed.
Lemma pow30 : 2 ^ 30 = 1073741824. Proof. cbn [pow]. lra. Qed.
Lemma quad_up R : IZR R * IZR R / 562949953421312 <= IZR (R * R / 562949953421312 + 1).
Proof.
  apply Rmult_le_reg_r with 562949953421312; [lra|]. replace (IZR R * IZR R / 562949953421312 * 562949953421312) with (IZR R * IZR R) by field. rewrite <- !mult_IZR. apply IZR_le. pose proof (Z.mul_succ_div_gt (R * R) 562949953421312 eq_refl). lia.
Qed.
Lemma cov_bounds_ok R n : (0 <= R <= 1125899906842624)%Z -> (30 <= n)%nat -> IZR (cov_lo R) / IZR P60 <= cov n (IZR R / 16777216) <= IZR (cov_hi R) / IZR P60.
Proof.
  intros HR Hn. assert (R0 : 0 <= IZR R) by (apply IZR_le; lia). unfold cov_lo, cov_hi.
  pose proof (cov_bounds_gen P60 R n (IZR R / 16777216) (R * R / 562949953421312 + 1)) as G. apply G; clear G; auto.
  - reflexivity.
  - lia.
  - unfold P60. lia.
  - rewrite pow30. unfold P60. field.
  - lra.
  - eapply Rle_trans; [|apply quad_up]. unfold P60. lra.
Qed.

(** ** Polynomials: recentring at an integer *)
Fixpoint peval (l : list Z) (w : R) : R := match l with [] => 0 | a :: r => IZR a + w * peval r w end.
Fixpoint addl (a b : list Z) : list Z := match a, b with [], _ => b | _, [] => a | x :: a', y :: b' => (x + y)%Z :: addl a' b' end.
Fixpoint recentre (z : Z) (l : list Z) : list Z := match l with [] => [] | a :: r => let q := recentre z r in addl (a :: q) (map (Z.mul z) q) end.
Lemma peval_add w : forall a b, peval (addl a b) w = peval a w + peval b w.
Proof. induction a as [|x a IH]; intros [|y b]; cbn [addl peval]; try lra. rewrite IH, plus_IZR. ring. Qed.
Lemma peval_mul z w : forall l, peval (map (Z.mul z) l) w = IZR z * peval l w.
Proof. induction l as [|a l IH]; cbn [map peval]; [ring|]. rewrite IH, mult_IZR. ring. Qed.
Lemma recentre_ok z w : forall l, peval (recentre z l) w = peval l (IZR z + w).
Proof. induction l as [|a l IH]; cbn [recentre]; [reflexivity|]. cbv zeta. rewrite peval_add, peval_mul. cbn [peval]. rewrite IH. ring. Qed.
Definition abs_sum (l : list Z) : Z := fold_right (fun a s => Z.abs a + s)%Z 0%Z l.
Lemma peval_abs w : Rabs w <= 1 -> forall l, Rabs (peval l w) <= IZR (abs_sum l).
Proof.
  intros H. induction l as [|a l IH]; cbn [peval abs_sum fold_right]; [rewrite Rabs_R0; lra|]. fold (abs_sum l). rewrite plus_IZR, abs_IZR. eapply Rle_trans; [apply Rabs_triang|]. apply Rplus_le_compat_l. rewrite Rabs_mult.
  rewrite <- (Rmult_1_l (IZR (abs_sum l))). apply Rmult_le_compat; auto using Rabs_pos.
Qed.
Definition range (l : list Z) : Z * Z := match l with [] => (0, 0)%Z | a :: r => (a - abs_sum r, a + abs_sum r)%Z end.
Lemma range_ok l w : Rabs w <= 1 -> IZR (fst (range l)) <= peval l w <= IZR (snd (range l)).
Proof.
  intros H. destruct l as [|a r]; cbn [range peval fst snd]; [lra|]. pose proof (peval_abs w H r) as B. assert (M : Rabs (w * peval r w) <= IZR (abs_sum r)). { rewrite Rabs_mult. rewrite <- (Rmult_1_l (IZR (abs_sum r))). apply Rmult_le_compat; auto using Rabs_pos. }
  apply Rabs_le_inv in M. rewrite minus_IZR, plus_IZR. lra.
Qed.
(** A row of float literals as a polynomial, and its integer form in z = 64 x *)
Fixpoint lpoly (l : list (Z * Z)) (x : R) : R := match l with [] => 0 | p :: r => IZR (fst p) * bpow radix2 (snd p) + x * lpoly r x end.
Fixpoint scaled (k : Z) (l : list (Z * Z)) : list Z := match l with [] => [] | p :: r => (fst p * 2 ^ (snd p + 68 + 6 * k))%Z :: scaled (k - 1) r end.
Lemma scaled_ok z : forall l k, Forall (fun p => (-68 <= snd p)%Z) l -> (Z.of_nat (length l) <= k + 1)%Z -> peval (scaled k l) z = bpow radix2 (68 + 6 * k) * lpoly l (z / 64).
Proof.
  induction l as [|p l IH]; intros k FA H; cbn [scaled peval lpoly]; [ring|]. inversion FA; subst. cbn [length] in H. rewrite IH by (auto; lia). rewrite mult_IZR. change (2 ^ (snd p + 68 + 6 * k))%Z with (radix2 ^ (snd p + 68 + 6 * k))%Z. rewrite IZR_Zpower by lia.
  replace (snd p + 68 + 6 * k)%Z with (snd p + (68 + 6 * k))%Z by lia. rewrite bpow_plus. replace (bpow radix2 (68 + 6 * k)) with (bpow radix2 (68 + 6 * (k - 1)) * 64); [field|]. change 64 with (bpow radix2 6). rewrite <- bpow_plus. f_equal. lia.
Qed.
(** ** The two closed checks *)
Definition w67 : Z := 2349427896429339.
(** [P] is the polynomial around z = 2 i + 1 *)
Definition row_in_band (P : list Z) (i : Z) (band : Z * Z) : bool :=
  let q := range P in
  (0 <? fst q)%Z && (fst band * w67 * 2 ^ 162 <=? fst q * (w67 + i ^ 3 * 2 ^ 33))%Z && (snd q * (w67 + (i + 1) ^ 3 * 2 ^ 33) <=? snd band * w67 * 2 ^ 162)%Z.
Fixpoint in_bands (P : list Z) (i : Z) (bands : list (Z * Z)) : bool := match bands with [] => true | b :: r => row_in_band P i b && in_bands (recentre 2 P) (i + 1) r end.
Lemma bands_checked : forallb (fun row => (length row =? 20)%nat && forallb (fun p => (-68 <=? snd p)%Z) row && in_bands (recentre 1 (scaled 19 row)) 0 icon_bands) icon_coeffs = true.
Proof. vm_compute. reflexivity. Qed.
Definition widened (band : Z * Z) : Z * Z := (Z.max 1048576 (fst band - 1024), Z.max 1048576 (snd band + 1024))%Z.
Definition band_inverts (i : Z) (band : Z * Z) : bool :=
  let '(l, u) := widened band in
  let r0 := (i * l)%Z in let r1 := ((i + 1) * u)%Z in
  (if (i =? 0)%Z then (u * 16 <=? 17 * 1048576)%Z else (u * cov_hi r0 * 16 * 16 <=? 17 * P60 * r0)%Z) && (15 * P60 * r1 <=? l * cov_lo r1 * 16 * 16)%Z && (r1 <=? 1125899906842624)%Z.
Fixpoint bands_invert (i : Z) (bands : list (Z * Z)) : bool := match bands with [] => true | b :: r => band_inverts i b && bands_invert (i + 1) r end.
Lemma inversion_checked : bands_invert 0 icon_bands = true /\ length icon_bands = 92%nat.
Proof. split; [vm_compute; reflexivity|reflexivity]. Qed.
