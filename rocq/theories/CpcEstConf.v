(** * The confidence bounds and the ICON estimate of a CPC sketch in binary64 *)
From Coq Require Import ZArith Reals Rpower Bool Psatz Permutation.
From Flocq Require Import Core Relative BinarySingleNaN.
From Verif Require Import Base Bytes Arr BitPackModel FloatModel FloatProofs RankProofs CpcTable CpcModel CpcProofs CpcSketch HllEstModel HllEstProofs HllEstCoupon HllEstHip HllEstComp CpcEstTables CpcEstModel CpcEstKxp.
From Coq Require Import Rdefinitions.
Local Open Scope R_scope.

Lemma f_k_val lgK : (lgK <= 26)%nat -> is_finite (f_k lgK) = true /\ B2R (f_k lgK) = bpow radix2 (Z.of_nat lgK).
Proof.
  intros HK. assert (P : (2 ^ Z.of_nat lgK <= 2 ^ 26)%Z) by (apply Z.pow_le_mono_r; lia). pose proof (Z.pow_pos_nonneg 2 (Z.of_nat lgK) ltac:(lia) ltac:(lia)).
  destruct (of_Z_exact (2 ^ Z.of_nat lgK)) as (F & V); [lia|]. split; auto. unfold f_k. rewrite V. apply K_bpow.
Qed.

(** ** eps *)
Section Log.
  Variable flog : f64 -> f64.
  Hypothesis Hlog : log_ok flog.
  Lemma const_ok (icon : bool) : let x := if icon then icon_const flog else hip_const flog in is_finite x = true /\ / 2 <= B2R x <= 1.
  Proof.
    destruct Hlog as (L1 & L2). destruct f2_val as (F2 & V2). destruct (L1 f_2 F2) as (FL & _); [rewrite V2; split; [lra|]; change 2 with (bpow radix2 1); apply bpow_le; lia|].
    destruct icon; cbv zeta; [unfold icon_const; auto|]. unfold hip_const.
    destruct (div_spec (flog f_2) f_2 0) as (Vd & Fd & _); auto; [lia|lra|rewrite V2, Rabs_pos_eq by lra; change (bpow radix2 0) with 1; lra|]. rewrite V2 in Vd.
    assert (Bd : / 4 <= B2R (fdiv (flog f_2) f_2) <= 1). { rewrite Vd. split; [apply rnd_ge; [change (/ 4) with (bpow radix2 (-2)); apply fmt_bpow; lia|lra]|apply rnd_le_gen; [apply (fmt_IZR 1); lia|lra]]. }
    destruct (sqrt_spec (fdiv (flog f_2) f_2) Fd ltac:(lra)) as (Vs & Fs). split; auto. rewrite Vs.
    split; [apply rnd_ge; [change (/ 2) with (bpow radix2 (-1)); apply fmt_bpow; lia|]|apply rnd_le_gen; [apply (fmt_IZR 1); lia|]].
    - replace (/ 2) with (sqrt (/ 4)); [apply sqrt_le_1; lra|]. replace (/ 4) with (/ 2 * / 2) by lra. apply sqrt_square. lra.
    - rewrite <- sqrt_1. apply sqrt_le_1; lra.
  Qed.
  Definition rel_hi (icon : bool) (lgK : nat) : f64 := fdiv (if icon then icon_const flog else hip_const flog) (fsqrt (f_k lgK)).
  Lemma rel_hi_ok icon lgK : (15 <= lgK <= 26)%nat -> is_finite (rel_hi icon lgK) = true /\ 0 <= B2R (rel_hi icon lgK) <= bpow radix2 (-7).
  Proof.
    intros HK. destruct (const_ok icon) as (Fx & Bx). destruct (f_k_val lgK ltac:(lia)) as (Fk & Vk). destruct (sqrt_spec (f_k lgK) Fk) as (Vs & Fs); [rewrite Vk; apply bpow_ge_0|].
    assert (Bs : bpow radix2 7 <= B2R (fsqrt (f_k lgK))).
    { rewrite Vs. apply rnd_ge; [apply fmt_bpow; lia|]. rewrite Vk. replace (bpow radix2 7) with (sqrt (bpow radix2 14)); [apply sqrt_le_1; [apply bpow_ge_0|apply bpow_ge_0|apply bpow_le; lia]|].
      change 14%Z with (7 + 7)%Z. rewrite bpow_plus. apply sqrt_square, bpow_ge_0. }
    unfold rel_hi. set (x := if icon then _ else _) in *. set (q := fsqrt (f_k lgK)) in *. change (bpow radix2 7) with 128 in Bs. change (bpow radix2 (-7)) with (/ 128).
    assert (Q : 0 <= B2R x / B2R q <= / 128). { assert (0 < / B2R q) by (apply Rinv_0_lt_compat; lra). split; [apply Rmult_le_pos; lra|]. apply Rmult_le_reg_r with (B2R q); [lra|]. unfold Rdiv. rewrite Rmult_assoc, Rinv_l by lra. lra. }
    destruct (div_spec x q 0) as (V & F & _); auto; [lia|lra|rewrite Rabs_pos_eq by lra; change (bpow radix2 0) with 1; lra|]. split; auto. rewrite V. split; [apply rnd_nonneg; lra|]. apply rnd_le_gen; [change (/ 128) with (bpow radix2 (-7)); apply fmt_bpow; lia|lra].
  Qed.
  Lemma kappa_val kappa : (1 <= kappa <= 3)%Z -> is_finite (f_of_Z kappa) = true /\ B2R (f_of_Z kappa) = IZR kappa /\ 1 <= IZR kappa <= 3.
  Proof. intros H. destruct (of_Z_exact kappa) as (F & V); [lia|]. split; auto. split; auto. split; apply IZR_le; lia. Qed.
  Lemma eps_hi_ok icon lgK kappa : (15 <= lgK <= 26)%nat -> (1 <= kappa <= 3)%Z -> is_finite (fmul (f_of_Z kappa) (rel_hi icon lgK)) = true /\
    0 <= B2R (fmul (f_of_Z kappa) (rel_hi icon lgK)) <= 3 / 4 /\ B2R (fmul (f_of_Z kappa) (rel_hi icon lgK)) = rnd (IZR kappa * B2R (rel_hi icon lgK)).
  Proof.
    intros HK Hk. destruct (rel_hi_ok icon lgK HK) as (Fr & Br). destruct (kappa_val kappa Hk) as (Fk & Vk & Bk). change (bpow radix2 (-7)) with (/ 128) in Br.
    assert (P : 0 <= IZR kappa * B2R (rel_hi icon lgK) <= / 2). { split; [apply Rmult_le_pos; lra|]. apply Rle_trans with (3 * / 128); [apply Rmult_le_compat; lra|lra]. }
    destruct (mul_spec (f_of_Z kappa) (rel_hi icon lgK) 0) as (V & F & _); auto; [lia|rewrite Vk, Rabs_pos_eq by lra; change (bpow radix2 0) with 1; lra|]. rewrite Vk in V. split; auto. split; auto. rewrite V.
    split; [apply rnd_nonneg; lra|]. apply Rle_trans with (/ 2); [|lra]. apply rnd_le_gen; [change (/ 2) with (bpow radix2 (-1)); apply fmt_bpow; lia|lra].
  Qed.
  Lemma conf_eps_hi icon lgK kappa : (15 <= lgK)%nat -> conf_eps flog icon lgK kappa = Some (fmul (f_of_Z kappa) (rel_hi icon lgK)).
  Proof. intros H. unfold conf_eps. destruct (Nat.leb_spec lgK 14); [lia|]. reflexivity. Qed.
  (** The tables, by evaluation *)
  Definition eps_lo (icon : bool) (lgK : nat) (kappa : Z) : option f64 := conf_eps (fun x => x) icon lgK kappa.
  Lemma conf_eps_lo icon lgK kappa : (lgK <= 14)%nat -> conf_eps flog icon lgK kappa = eps_lo icon lgK kappa.
  Proof. intros H. unfold eps_lo, conf_eps. destruct (Nat.leb_spec lgK 14); [|lia]. reflexivity. Qed.
  Definition chk_row (icon : bool) (lgK : nat) : bool :=
    match eps_lo icon lgK 1, eps_lo icon lgK 2, eps_lo icon lgK 3 with
    | Some a, Some b, Some c => is_finite a && is_finite b && is_finite c && fle f_zero a && fle a b && fle b c && fle c (f_lit 3 (-2))
    | _, _, _ => false end.
  Lemma chk_rows : forallb (fun l => chk_row true l && chk_row false l) (seq 4 11) = true.
  Proof. vm_compute. reflexivity. Qed.
  Lemma three_quarters : is_finite (f_lit 3 (-2)) = true /\ B2R (f_lit 3 (-2)) = 3 / 4.
  Proof. destruct (lit_spec 3 (-2)) as (F & V); [lia|lia|]. split; [exact F|]. rewrite V. change (bpow radix2 (-2)) with (/ 4). lra. Qed.
  Lemma eps_lo_row icon lgK : (4 <= lgK <= 14)%nat -> exists a b c, eps_lo icon lgK 1 = Some a /\ eps_lo icon lgK 2 = Some b /\ eps_lo icon lgK 3 = Some c /\
    (is_finite a = true /\ is_finite b = true /\ is_finite c = true) /\ 0 <= B2R a <= B2R b /\ B2R b <= B2R c <= 3 / 4.
  Proof.
    intros H. assert (R : chk_row icon lgK = true). { pose proof chk_rows as C. rewrite forallb_forall in C. specialize (C lgK ltac:(apply in_seq; lia)). apply andb_prop in C. destruct icon; apply C. }
    unfold chk_row in R. generalize dependent (eps_lo icon lgK 1). generalize dependent (eps_lo icon lgK 2). generalize dependent (eps_lo icon lgK 3). intros [c|] [b|] [a|] R; try discriminate.
    repeat (apply andb_prop in R; let X := fresh in destruct R as [R X]). destruct three_quarters as (F3 & V3).
    exists a, b, c. do 3 (split; [reflexivity|]). split; [auto|]. pose proof (proj1 (fle_spec f_zero a eq_refl R) ltac:(assumption)) as Q1. pose proof (proj1 (fle_spec a b ltac:(assumption) ltac:(assumption)) ltac:(assumption)) as Q2.
    pose proof (proj1 (fle_spec b c ltac:(assumption) ltac:(assumption)) ltac:(assumption)) as Q3. pose proof (proj1 (fle_spec c (f_lit 3 (-2)) ltac:(assumption) F3) ltac:(assumption)) as Q4. rewrite V3 in Q4. change (B2R f_zero) with 0 in Q1. lra.
  Qed.
  Theorem conf_eps_ok icon lgK kappa : (4 <= lgK <= 26)%nat -> (1 <= kappa <= 3)%Z -> exists e, conf_eps flog icon lgK kappa = Some e /\ is_finite e = true /\ 0 <= B2R e <= 3 / 4.
  Proof.
    intros HK Hk. destruct (le_lt_dec lgK 14) as [L|L].
    - rewrite conf_eps_lo by auto. destruct (eps_lo_row icon lgK ltac:(lia)) as (a & b & c & Ea & Eb & Ec & (Fa & Fb & Fc) & B1 & B2).
      assert (C : (kappa = 1 \/ kappa = 2 \/ kappa = 3)%Z) by lia. destruct C as [->|[->| ->]]; [exists a|exists b|exists c]; repeat split; auto; lra.
    - rewrite conf_eps_hi by lia. eexists. split; [reflexivity|]. destruct (eps_hi_ok icon lgK kappa ltac:(lia) Hk) as (F & B & _). auto.
  Qed.
  Theorem conf_eps_mono icon lgK k1 k2 e1 e2 : (4 <= lgK <= 26)%nat -> (1 <= k1)%Z -> (k1 <= k2)%Z -> (k2 <= 3)%Z -> conf_eps flog icon lgK k1 = Some e1 -> conf_eps flog icon lgK k2 = Some e2 -> B2R e1 <= B2R e2.
  Proof.
    intros HK H1 H12 H2. destruct (le_lt_dec lgK 14) as [L|L].
    - rewrite !conf_eps_lo by auto. destruct (eps_lo_row icon lgK ltac:(lia)) as (a & b & c & Ea & Eb & Ec & _ & B1 & B2).
      assert (C : (k1 = 1 \/ k1 = 2 \/ k1 = 3)%Z) by lia. assert (C' : (k2 = 1 \/ k2 = 2 \/ k2 = 3)%Z) by lia.
      destruct C as [->|[->| ->]], C' as [->|[->| ->]]; try lia; rewrite ?Ea, ?Eb, ?Ec; intros X Y; apply (f_equal (fun o => match o with Some x => B2R x | None => 0 end)) in X, Y; cbv beta iota in X, Y; lra.
    - rewrite !conf_eps_hi by lia. intros X Y. apply (f_equal (fun o => match o with Some x => B2R x | None => 0 end)) in X, Y. cbv beta iota in X, Y. rewrite <- X, <- Y.
      destruct (eps_hi_ok icon lgK k1 ltac:(lia) ltac:(lia)) as (_ & _ & ->). destruct (eps_hi_ok icon lgK k2 ltac:(lia) ltac:(lia)) as (_ & _ & ->). destruct (rel_hi_ok icon lgK ltac:(lia)) as (_ & B).
      apply rnd_le. apply Rmult_le_compat_r; [lra|]. apply IZR_le. auto.
  Qed.

  (** ** Bounds of an estimate that is at least the number of coupons *)
  Theorem conf_ok icon lgK n e kappa : (4 <= lgK <= 26)%nat -> (1 <= kappa <= 3)%Z -> (0 <= n <= 2 ^ 53)%Z -> is_finite e = true -> IZR n <= B2R e <= bpow radix2 300 -> (n = 0%Z -> B2R e = 0) ->
    exists lo up, conf_lower flog icon lgK n (Some e) kappa = Some lo /\ conf_upper flog icon lgK n (Some e) kappa = Some up /\
      is_finite lo = true /\ is_finite up = true /\ IZR n <= B2R lo /\ B2R lo <= B2R e /\ B2R e <= B2R up /\ exists z, B2R up = IZR z.
  Proof.
    intros HK Hk Hn Fe Be H0. unfold conf_lower, conf_upper. destruct (Z.eqb_spec n 0) as [->|N].
    - exists f_zero, f_zero. rewrite (H0 eq_refl). change (B2R f_zero) with 0. do 4 (split; [reflexivity|]). repeat split; try lra. exists 0%Z. reflexivity.
    - destruct (conf_eps_ok icon lgK kappa HK Hk) as (r & -> & Fr & Br). cbn [bindo]. assert (Pn : 0 <= IZR n) by (apply IZR_le; lia).
      destruct (upper_ok e r Fe ltac:(lra) Fr Br) as (Fu & Lu & _). destruct (lower_ok e r Fe ltac:(lra) Fr ltac:(lra)) as (Fl & Bl & _). destruct (of_Z_exact n ltac:(lia)) as (Fn & Vn).
      destruct (ceil_spec _ Fu) as (Vc & Fc). eexists _, _. split; [reflexivity|]. split; [reflexivity|].
      destruct (flt (fdiv e (fadd f_1 r)) (f_of_Z n)) eqn:C.
      + split; auto. split; auto. rewrite Vn. split; [lra|]. split; [lra|]. rewrite Vc. split; [|eauto]. eapply Rle_trans; [exact Lu|apply Zceil_ub].
      + apply flt_false in C; auto. rewrite Vn in C. split; auto. split; auto. split; auto. split; [lra|]. rewrite Vc. split; [|eauto]. eapply Rle_trans; [exact Lu|apply Zceil_ub].
  Qed.
  Theorem conf_widen icon lgK n e k1 k2 lo1 up1 lo2 up2 : (4 <= lgK <= 26)%nat -> (1 <= k1)%Z -> (k1 <= k2)%Z -> (k2 <= 3)%Z -> (0 <= n <= 2 ^ 53)%Z -> is_finite e = true -> IZR n <= B2R e <= bpow radix2 300 ->
    conf_lower flog icon lgK n (Some e) k1 = Some lo1 -> conf_upper flog icon lgK n (Some e) k1 = Some up1 -> conf_lower flog icon lgK n (Some e) k2 = Some lo2 -> conf_upper flog icon lgK n (Some e) k2 = Some up2 ->
    B2R lo2 <= B2R lo1 /\ B2R up1 <= B2R up2.
  Proof.
    intros HK H1 H12 H2 Hn Fe Be. unfold conf_lower, conf_upper. destruct (Z.eqb_spec n 0) as [->|N].
    - intros A1 A2 A3 A4. assert (lo1 = lo2) by congruence. assert (up1 = up2) by congruence. subst. lra.
    - destruct (conf_eps_ok icon lgK k1 HK ltac:(lia)) as (r1 & E1 & F1 & B1). destruct (conf_eps_ok icon lgK k2 HK ltac:(lia)) as (r2 & E2 & F2 & B2). pose proof (conf_eps_mono icon lgK k1 k2 r1 r2 HK H1 H12 H2 E1 E2) as M.
      rewrite E1, E2. cbn [bindo]. intros A1 A2 A3 A4. apply (f_equal (fun o => match o with Some x => x | None => f_nan end)) in A1, A2, A3, A4. cbv beta iota in A1, A2, A3, A4.
      assert (Pn : 0 <= IZR n) by (apply IZR_le; lia).
      destruct (upper_ok e r1 Fe ltac:(lra) F1 B1) as (Fu1 & _ & D1 & W1 & V1). destruct (upper_ok e r2 Fe ltac:(lra) F2 B2) as (Fu2 & _ & D2 & W2 & V2).
      destruct (lower_ok e r1 Fe ltac:(lra) F1 ltac:(lra)) as (Fl1 & _ & D3 & W3 & V3). destruct (lower_ok e r2 Fe ltac:(lra) F2 ltac:(lra)) as (Fl2 & _ & D4 & W4 & V4). destruct (of_Z_exact n ltac:(lia)) as (Fn & Vn).
      assert (U : B2R (fdiv e (fsub f_1 r1)) <= B2R (fdiv e (fsub f_1 r2))). { rewrite V1, V2. apply div_fac_mono; [lra|lra|]. rewrite W1, W2. apply rnd_le. lra. }
      assert (L : B2R (fdiv e (fadd f_1 r2)) <= B2R (fdiv e (fadd f_1 r1))). { rewrite V3, V4. apply div_fac_mono; [lra|lra|]. rewrite W3, W4. apply rnd_le. lra. }
      split.
      + rewrite <- A1, <- A3. destruct (flt (fdiv e (fadd f_1 r1)) (f_of_Z n)) eqn:C1, (flt (fdiv e (fadd f_1 r2)) (f_of_Z n)) eqn:C2; try lra.
        * apply (flt_spec _ _ Fl1 Fn) in C1. apply flt_false in C2; auto. lra.
        * apply flt_false in C1; auto.
      + rewrite <- A2, <- A4. destruct (ceil_spec _ Fu1) as (-> & _). destruct (ceil_spec _ Fu2) as (-> & _). apply IZR_le, Zceil_le. exact U.
  Qed.
End Log.

(** ** ICON *)
(** What is used of math.Pow: 2^y to within 1/64 for 5 <= y <= 64 *)
Definition pow_ok (fpow : f64 -> f64 -> f64) : Prop :=
  forall y : f64, is_finite y = true -> 5 <= B2R y <= 64 -> is_finite (fpow f_2 y) = true /\ Rabs (B2R (fpow f_2 y) - Rpower 2 (B2R y)) <= Rpower 2 (B2R y) / 64.
Lemma Rpower_lin y : 5 <= y -> 4 * y <= Rpower 2 y.
Proof.
  intros H. replace y with (5 + (y - 5)) at 2 by ring. rewrite Rpower_plus. replace (Rpower 2 5) with 32.
  - unfold Rpower. pose proof (exp_ineq1_le ((y - 5) * ln 2)) as E. pose proof ln_lt_2 as L. assert ((y - 5) * / 2 <= (y - 5) * ln 2) by (apply Rmult_le_compat_l; lra). lra.
  - replace 5 with (INR 5) by (cbn; lra). rewrite Rpower_pow by lra. cbn [pow]. lra.
Qed.
Lemma Rpower_top y : y <= 64 -> Rpower 2 y <= bpow radix2 64.
Proof.
  intros H. apply Rle_trans with (Rpower 2 (INR 64)); [apply Rle_Rpower; [lra|]|rewrite Rpower_pow by lra; rewrite (pow_IZR 2 64); apply Req_le; reflexivity].
  rewrite INR_IZR_INZ. change (Z.of_nat 64) with 64%Z. exact H.
Qed.
Definition coeff_ok : bool := (length icon_coeffs =? 23)%nat && forallb (fun r => (length r =? 20)%nat && forallb (fun p => let v := f_lit (fst p) (snd p) in is_finite v && fle (Babs v) (f_lit 1 6)) r) icon_coeffs.
Lemma coeffs_ok : coeff_ok = true. Proof. vm_compute. reflexivity. Qed.
Lemma icon_row_ok lgK : (4 <= lgK <= 26)%nat -> exists r, icon_row lgK = Some r /\ length r = 20%nat /\ Forall (fun a => fb a 6) r.
Proof.
  intros H. pose proof coeffs_ok as C. unfold coeff_ok in C. apply andb_prop in C. destruct C as [L C]. apply Nat.eqb_eq in L. rewrite forallb_forall in C.
  unfold icon_row. destruct (nth_error icon_coeffs (lgK - 4)) as [r|] eqn:E; [|apply nth_error_None in E; lia]. eexists. split; [reflexivity|]. apply nth_error_In in E. apply C in E. apply andb_prop in E. destruct E as [E1 E2]. apply Nat.eqb_eq in E1.
  split; [rewrite map_length; auto|]. apply Forall_forall. intros a Ha. apply in_map_iff in Ha. destruct Ha as (p & <- & Hp). rewrite forallb_forall in E2. specialize (E2 p Hp). cbv zeta in E2. apply andb_prop in E2. destruct E2. apply fb_closed; auto. lia.
Qed.
Lemma horner_fb x : fb x 2 -> forall l t e, (6 <= e <= 400 - 3 * Z.of_nat (length l))%Z -> fb t e -> Forall (fun a => fb a 6) l ->
  fb (fold_left (fun total a => fadd (fmul total x) a) l t) (e + 3 * Z.of_nat (length l)).
Proof.
  intros Hx. induction l as [|a l IH]; intros t e He Ht FA; cbn [fold_left length] in *; [replace (e + 3 * Z.of_nat 0)%Z with e by lia; auto|].
  inversion FA; subst. replace (e + 3 * Z.of_nat (S (length l)))%Z with (e + 3 + 3 * Z.of_nat (length l))%Z by lia. apply IH; auto; [lia|].
  replace (e + 3)%Z with (e + 2 + 1)%Z by lia. apply fb_add; [lia|apply fb_mul; auto; lia|eapply fb_le; eauto; lia].
Qed.
Lemma eval_poly_fb r x : length r = 20%nat -> Forall (fun a => fb a 6) r -> fb x 2 -> exists v, eval_poly r x = Some v /\ fb v 63.
Proof.
  intros L FA Hx. unfold eval_poly. assert (L' : length (rev r) = 20%nat) by (rewrite rev_length; auto). assert (FA' : Forall (fun a => fb a 6) (rev r)) by (apply Forall_rev; auto).
  destruct (rev r) as [|c l]; [discriminate|]. cbn [length] in L'. eexists. split; [reflexivity|]. inversion FA'; subst. replace 63%Z with (6 + 3 * Z.of_nat (length l))%Z by lia. apply horner_fb; auto. lia.
Qed.
Lemma icon_consts : fle (f_lit 3 (-2)) (f_lit 7151928925732127 (-53)) = true /\ fle (f_lit 7151928925732127 (-53)) f_1 = true /\ fle (f_lit 1 6) (f_lit 2349427896429339 (-45)) = true /\
  is_finite (f_lit 7151928925732127 (-53)) = true /\ is_finite (f_lit 2349427896429339 (-45)) = true /\
  is_finite (dec 57 1) = true /\ is_finite (dec 56 1) = true /\ fle (f_lit 11 (-1)) (dec 56 1) = true /\ fle (f_lit 11 (-1)) (dec 57 1) = true /\ fle (dec 56 1) (f_of_Z 6) = true /\ fle (dec 57 1) (f_of_Z 6) = true.
Proof. repeat split; vm_compute; reflexivity. Qed.
Definition thr (lgK : nat) : f64 := if (lgK <? 14)%nat then dec 57 1 else dec 56 1.
Lemma thr_ok lgK : is_finite (thr lgK) = true /\ 11 / 2 <= B2R (thr lgK) <= 6.
Proof.
  destruct icon_consts as (_ & _ & _ & _ & _ & F7 & F6 & A & B & C & D). destruct (lit_spec 11 (-1)) as (F & V); [lia|lia|]. assert (V' : B2R (f_lit 11 (-1)) = 11 / 2) by (rewrite V; change (bpow radix2 (-1)) with (/ 2); lra). destruct (of_Z_exact 6) as (G & W); [lia|].
  apply (fle_spec _ _ F F6) in A. apply (fle_spec _ _ F F7) in B. apply (fle_spec _ _ F6 G) in C. apply (fle_spec _ _ F7 G) in D. unfold thr. destruct (lgK <? 14)%nat; split; auto; lra.
Qed.
Lemma fmt_shift z e : (Z.abs z <= 2 ^ 53)%Z -> (-1074 <= e)%Z -> fmt (IZR z * bpow radix2 e).
Proof. apply fmt_lit. Qed.
Theorem icon_ok fpow lgK c : pow_ok fpow -> (4 <= lgK <= 26)%nat -> (0 <= c <= 64 * 2 ^ Z.of_nat lgK)%Z ->
  exists e, icon_estimate fpow lgK c = Some e /\ is_finite e = true /\ IZR c <= B2R e <= bpow radix2 300 /\ ((c <= 1)%Z -> B2R e = IZR c).
Proof.
  intros HP HK Hc. assert (PT : (2 ^ Z.of_nat lgK <= 2 ^ 26)%Z) by (apply Z.pow_le_mono_r; lia). assert (P300 : 1 <= bpow radix2 300) by (change 1 with (bpow radix2 0); apply bpow_le; lia).
  unfold icon_estimate. destruct (Z.eqb_spec c 0) as [->|N0]; [exists f_zero; repeat split; auto; change (B2R f_zero) with 0; lra|].
  destruct f1_val as (F1 & V1). destruct (Z.ltb_spec c 2) as [L2|L2]; [exists f_1; assert (c = 1%Z) by lia; subst; repeat split; auto; rewrite V1; lra|].
  cbv zeta. destruct (f_k_val lgK ltac:(lia)) as (Fk & Vk). destruct (of_Z_exact c ltac:(lia)) as (Fc & Vc). fold (thr lgK). destruct (thr_ok lgK) as (Ft & Bt).
  set (K := bpow radix2 (Z.of_nat lgK)) in *. assert (PK : 1 <= K <= bpow radix2 26) by (unfold K; split; [change 1 with (bpow radix2 0)|]; apply bpow_le; lia). change (bpow radix2 26) with 67108864 in PK.
  assert (Cc : 2 <= IZR c <= 64 * K). { split; [apply IZR_le; lia|]. unfold K. rewrite <- K_bpow. rewrite <- mult_IZR. apply IZR_le. lia. }
  destruct (mul_spec (thr lgK) (f_k lgK) 29) as (Vt & Ftk & _); auto; [lia| |].
  { rewrite Vk, Rabs_pos_eq by (apply Rmult_le_pos; lra). change (bpow radix2 29) with 536870912. apply Rle_trans with (8 * 67108864); [apply Rmult_le_compat; lra|lra]. }
  rewrite Vk in Vt.
  (* the exact quotient c / k *)
  assert (QE : IZR c / K = IZR c * bpow radix2 (- Z.of_nat lgK)) by (unfold K; rewrite bpow_opp; reflexivity).
  assert (QB : 0 <= IZR c / K <= 64). { split; [apply Rmult_le_pos; [lra|apply Rlt_le, Rinv_0_lt_compat; lra]|]. apply Rmult_le_reg_r with K; [lra|]. unfold Rdiv. rewrite Rmult_assoc, Rinv_l by lra. lra. }
  destruct (div_spec (f_of_Z c) (f_k lgK) 6) as (Vq & Fq & _); auto; [lia|lra|rewrite Vc, Vk, Rabs_pos_eq by lra; change (bpow radix2 6) with 64; lra|].
  rewrite Vc, Vk in Vq. rewrite (rnd_id (IZR c / K)) in Vq by (rewrite QE; apply fmt_lit; lia).
  destruct icon_consts as (A1 & A2 & A3 & G1 & G2 & _). destruct (lit_spec 3 (-2)) as (F3 & V3); [lia|lia|]. assert (V3' : B2R (f_lit 3 (-2)) = 3 / 4) by (rewrite V3; change (bpow radix2 (-2)) with (/ 4); lra).
  apply (fle_spec _ _ F3 G1) in A1. apply (fle_spec _ _ G1 F1) in A2. rewrite V3' in A1. rewrite V1 in A2.
  destruct (flt (fmul (thr lgK) (f_k lgK)) (f_of_Z c)) eqn:T.
  - apply (flt_spec _ _ Ftk Fc) in T. rewrite Vc in T.
    assert (T5 : 5 * K <= IZR c). { apply Rle_trans with (B2R (fmul (thr lgK) (f_k lgK))); [|lra]. rewrite Vt. apply rnd_ge; [|apply Rmult_le_compat_r; lra]. unfold K. apply (fmt_lit 5); lia. }
    assert (Y5 : 5 <= IZR c / K). { apply Rmult_le_reg_r with K; [lra|]. unfold Rdiv. rewrite Rmult_assoc, Rinv_l by lra. lra. }
    eexists. split; [reflexivity|]. unfold icon_exp. destruct (HP (fdiv (f_of_Z c) (f_k lgK)) Fq ltac:(rewrite Vq; lra)) as (Fp & Ep). rewrite Vq in Ep.
    pose proof (Rpower_lin (IZR c / K) Y5) as RL. pose proof (Rpower_top (IZR c / K) (proj2 QB)) as RT. set (p := fpow _ _) in *. set (y := IZR c / K) in *. set (Py := Rpower 2 y) in *. apply Rabs_le_inv in Ep.
    assert (Bp : 15 / 4 * y <= B2R p <= bpow radix2 65) by (change (bpow radix2 65) with (bpow radix2 (64 + 1)); rewrite bpow_plus; change (bpow radix2 1) with 2; lra).
    set (a := f_lit 7151928925732127 (-53)) in *.
    assert (B1 : 3 / 4 * K <= B2R a * B2R (f_k lgK) <= K). { rewrite Vk. split; [apply Rmult_le_compat_r; lra|]. rewrite <- (Rmult_1_l K) at 2. apply Rmult_le_compat_r; lra. }
    destruct (mul_spec a (f_k lgK) 26) as (Va & Fa & _); auto; [lia|rewrite Rabs_pos_eq by lra; change (bpow radix2 26) with 67108864; lra|].
    assert (B2 : 3 / 4 * K <= B2R (fmul a (f_k lgK)) <= K). { rewrite Va. split; [apply rnd_ge; [|lra]|apply rnd_le_gen; [unfold K; apply fmt_bpow; lia|lra]]. replace (3 / 4 * K) with (IZR 3 * bpow radix2 (Z.of_nat lgK - 2)) by (unfold Zminus; rewrite bpow_plus; change (bpow radix2 (- (2))) with (/ 4); fold K; lra). apply fmt_lit; lia. }
    assert (B3 : IZR c <= B2R (fmul a (f_k lgK)) * B2R p <= bpow radix2 100).
    { split.
      - apply Rle_trans with (3 / 4 * K * (15 / 4 * y)); [|apply Rmult_le_compat; lra]. replace (IZR c) with (K * y) by (unfold y; field; lra). assert (0 <= K * y) by (apply Rmult_le_pos; lra). lra.
      - apply Rle_trans with (bpow radix2 35 * bpow radix2 65); [apply Rmult_le_compat; try lra; change (bpow radix2 35) with 34359738368; lra|]. rewrite <- bpow_plus. apply bpow_le. lia. }
    destruct (mul_spec (fmul a (f_k lgK)) p 100) as (Ve & Fe & Be); auto; [lia|rewrite Rabs_pos_eq by lra; lra|]. split; auto. split; [|intros; lia]. split.
    + rewrite Ve. apply rnd_ge; [apply fmt_IZR; lia|apply B3].
    + apply Rabs_le_inv in Be. apply Rle_trans with (bpow radix2 100); [lra|apply bpow_le; lia].
  - apply flt_false in T; auto. rewrite Vc in T.
    assert (T6 : IZR c <= 6 * K). { eapply Rle_trans; [exact T|]. rewrite Vt. apply rnd_le_gen; [unfold K; apply (fmt_lit 6); lia|apply Rmult_le_compat_r; lra]. }
    destruct (icon_row_ok lgK HK) as (r & -> & Lr & FAr). cbn [bindo].
    destruct f2_val as (F2 & V2). destruct (mul_spec f_2 (f_k lgK) 27) as (V2k & F2k & _); auto; [lia|rewrite V2, Vk, Rabs_pos_eq by lra; change (bpow radix2 27) with 134217728; lra|].
    assert (W2k : B2R (fmul f_2 (f_k lgK)) = 2 * K). { rewrite V2k, V2, Vk. apply rnd_id. unfold K. apply (fmt_lit 2); lia. }
    assert (QX : 0 <= IZR c / (2 * K) <= 4). { split; [apply Rmult_le_pos; [lra|apply Rlt_le, Rinv_0_lt_compat; lra]|]. apply Rmult_le_reg_r with (2 * K); [lra|]. unfold Rdiv. rewrite Rmult_assoc, Rinv_l by lra. lra. }
    destruct (div_spec (f_of_Z c) (fmul f_2 (f_k lgK)) 2) as (Vx & Fx & Bx); auto; [lia|lra|rewrite Vc, W2k, Rabs_pos_eq by lra; change (bpow radix2 2) with 4; lra|].
    destruct (eval_poly_fb r _ Lr FAr (conj Fx Bx)) as (v & -> & Fv). cbn [bindo].
    assert (Fr : fb (fdiv (f_of_Z c) (f_k lgK)) 6) by (split; auto; rewrite Vq, Rabs_pos_eq by lra; change (bpow radix2 6) with 64; lra).
    assert (F67 : away (f_lit 2349427896429339 (-45)) 6). { destruct (lit_spec 1 6) as (F16 & V16); [lia|lia|]. apply (fle_spec _ _ F16 G2) in A3. rewrite V16, Rmult_1_l in A3. unfold away. rewrite Rabs_pos_eq; auto. eapply Rle_trans; [apply bpow_ge_0|exact A3]. }
    set (ra := fdiv (f_of_Z c) (f_k lgK)) in *. set (te := fadd f_1 _).
    assert (Fte : fb te 13). { unfold te. apply (fb_add _ _ 12); [lia|split; auto; rewrite V1, Rabs_R1; change 1 with (bpow radix2 0); apply bpow_le; lia|]. change 12%Z with (18 - 6)%Z. apply fb_div; [lia|lia| |auto]. change 18%Z with (12 + 6)%Z. apply fb_mul; [lia|lia| |auto]. change 12%Z with (6 + 6)%Z. apply fb_mul; auto; lia. }
    assert (Fdc : fb (f_of_Z c) 32). { split; auto. rewrite Vc, Rabs_pos_eq by lra. change (bpow radix2 32) with 4294967296. lra. }
    assert (Fre : fb (fmul (fmul (f_of_Z c) v) te) 108). { change 108%Z with (95 + 13)%Z. apply fb_mul; [lia|lia| |auto]. change 95%Z with (32 + 63)%Z. apply fb_mul; auto; lia. }
    set (re := fmul _ te) in *. destruct Fre as (Fre & Bre). eexists. split; [reflexivity|]. destruct (fle (f_of_Z c) re) eqn:C.
    + apply (fle_spec _ _ Fc Fre) in C. rewrite Vc in C. split; auto. split; [|intros; lia]. split; auto. apply Rabs_le_inv in Bre. apply Rle_trans with (bpow radix2 108); [lra|apply bpow_le; lia].
    + split; auto. rewrite Vc. split; [|intros; lia]. split; [lra|]. destruct Fdc as (_ & Bd). rewrite Vc in Bd. apply Rabs_le_inv in Bd. apply Rle_trans with (bpow radix2 32); [lra|apply bpow_le; lia].
Qed.
