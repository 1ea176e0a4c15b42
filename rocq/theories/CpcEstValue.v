(** * The values of the confidence bounds of a CPC sketch, up to rounding *)
From Coq Require Import ZArith Reals Rpower Bool Psatz.
From Flocq Require Import Core Relative BinarySingleNaN.
From Verif Require Import Base Bytes Arr FloatModel FloatProofs RankProofs HllEstModel HllEstProofs HllEstCoupon HllEstHip HllEstComp CpcEstTables CpcEstModel CpcEstKxp CpcEstConf.
From Coq Require Import Rdefinitions.
Local Open Scope R_scope.

(** [a] is [b] up to the relative error [d] *)
Definition rc (d a b : R) : Prop := exists t, Rabs t <= d /\ a = b * (1 + t).
Lemma rc_refl d a : 0 <= d -> rc d a a.
Proof. intros H. exists 0. rewrite Rabs_R0. split; auto. ring. Qed.
Lemma rc_le d d' a b : d <= d' -> rc d a b -> rc d' a b.
Proof. intros H (t & A & B). exists t. split; auto. lra. Qed.
Lemma prod_bound x y d1 d2 : Rabs x <= d1 -> Rabs y <= d2 -> d1 <= / 4 -> d2 <= / 4 -> Rabs (x + y + x * y) <= 2 * (d1 + d2).
Proof.
  intros Hx Hy H1 H2. pose proof (Rabs_pos x). pose proof (Rabs_pos y). eapply Rle_trans; [apply Rabs_triang|]. rewrite Rabs_mult. pose proof (Rabs_triang x y).
  assert (Rabs x * Rabs y <= d1 * / 4) by (apply Rmult_le_compat; lra). lra.
Qed.
Lemma rc_mul d1 d2 a b a' b' : d1 <= / 4 -> d2 <= / 4 -> rc d1 a b -> rc d2 a' b' -> rc (2 * (d1 + d2)) (a * a') (b * b').
Proof. intros H1 H2 (x & Hx & ->) (y & Hy & ->). exists (x + y + x * y). split; [apply prod_bound; auto|ring]. Qed.
Lemma rc_trans d1 d2 a b c : d1 <= / 4 -> d2 <= / 4 -> rc d1 a b -> rc d2 b c -> rc (2 * (d1 + d2)) a c.
Proof. intros H1 H2 (x & Hx & ->) (y & Hy & ->). exists (x + y + x * y). split; [apply prod_bound; auto|ring]. Qed.
Lemma rc_inv d a b : d <= / 4 -> b <> 0 -> rc d a b -> rc (2 * d) (/ a) (/ b).
Proof.
  intros H Nb (x & Hx & ->). apply Rabs_le_inv in Hx as Hx'. exists (- x / (1 + x)). split; [|field; split; lra].
  unfold Rdiv. rewrite Rabs_mult, Rabs_Ropp, (Rabs_pos_eq (/ (1 + x))) by (apply Rlt_le, Rinv_0_lt_compat; lra). rewrite (Rmult_comm 2). apply Rmult_le_compat; auto using Rabs_pos; [apply Rlt_le, Rinv_0_lt_compat; lra|].
  rewrite <- (Rinv_involutive 2) by lra. apply Rinv_le_contravar; lra.
Qed.
Lemma rc_sqrt d a b : d <= / 4 -> 0 <= b -> rc d a b -> rc d (sqrt a) (sqrt b).
Proof.
  intros H Hb (x & Hx & ->). apply Rabs_le_inv in Hx as Hx'. exists (sqrt (1 + x) - 1). split; [|rewrite sqrt_mult by lra; ring]. eapply Rle_trans; [|exact Hx].
  set (s := sqrt (1 + x)). assert (S : s * s = 1 + x) by (apply sqrt_sqrt; lra). assert (P : 0 <= s) by apply sqrt_pos. replace x with ((s - 1) * (s + 1)) by (replace ((s - 1) * (s + 1)) with (s * s - 1) by ring; lra).
  rewrite Rabs_mult. rewrite (Rabs_pos_eq (s + 1)) by lra. pose proof (Rabs_pos (s - 1)). rewrite <- (Rmult_1_r (Rabs (s - 1))) at 1. apply Rmult_le_compat_l; lra.
Qed.
Definition u53 : R := bpow radix2 (-53).
Lemma u53_small : 0 < u53 /\ 1048576 * u53 <= / 1048576.
Proof. unfold u53. split; [apply bpow_gt_0|]. change 1048576 with (bpow radix2 20) at 1. rewrite <- bpow_plus. change (/ 1048576) with (bpow radix2 (-20)). apply bpow_le; lia. Qed.
Lemma rc_rnd x : bpow radix2 (-1022) <= Rabs x -> rc u53 (rnd x) x.
Proof. intros H. destruct (rnd_rel x H) as (t & A & B). exists t. auto. Qed.
Lemma norm_ge x : bpow radix2 (-900) <= x -> bpow radix2 (-1022) <= Rabs x.
Proof. intros H. pose proof (bpow_gt_0 radix2 (-900)). rewrite Rabs_pos_eq by lra. eapply Rle_trans; [|exact H]. apply bpow_le; lia. Qed.

Section Log.
  Variable flog : f64 -> f64.
  Hypothesis Hlog : log_ok flog.
  (** The error constant: from the tables up to lgK = 14, ln 2 (ICON) and sqrt (ln 2 / 2) (HIP) beyond *)
  Definition err_const (icon : bool) (lgK : nat) (kappa : Z) : R :=
    if (lgK <=? 14)%nat then IZR (nth (3 * (lgK - 4) + (Z.to_nat kappa - 1)) (if icon then icon_high else hip_high) 0%Z) / 10000
    else if icon then B2R (flog f_2) else sqrt (B2R (flog f_2) / 2).
  Definition err_eps (icon : bool) (lgK : nat) (kappa : Z) : R := IZR kappa * (err_const icon lgK kappa / sqrt (2 ^ lgK)).

  Lemma tables_ok : forallb (fun t => (length t =? 33)%nat && forallb (fun v => (0 <? v)%Z && (v <=? 10000)%Z) t) [icon_high; hip_high] = true.
  Proof. vm_compute. reflexivity. Qed.
  Lemma table_entry (icon : bool) i : (i < 33)%nat -> let t := if icon then icon_high else hip_high in nth_error t i = Some (nth i t 0%Z) /\ (0 < nth i t 0 <= 10000)%Z.
  Proof.
    intros Hi. cbv zeta. pose proof tables_ok as T. rewrite forallb_forall in T. set (t := if icon then icon_high else hip_high).
    specialize (T t ltac:(unfold t; destruct icon; [left|right; left]; reflexivity)). apply andb_prop in T. destruct T as [Lt Ct]. apply Nat.eqb_eq in Lt. clearbody t.
    split; [apply nth_error_nth'; lia|]. rewrite forallb_forall in Ct. assert (Hi' : (i < length t)%nat) by (rewrite Lt; exact Hi). specialize (Ct (nth i t 0%Z) (nth_In _ _ Hi')). apply andb_prop in Ct. destruct Ct as [C1 C2]. apply Z.ltb_lt in C1. apply Z.leb_le in C2. auto.
  Qed.
  Lemma log2_val : is_finite (flog f_2) = true /\ / 2 <= B2R (flog f_2) <= 1.
  Proof. exact (const_ok flog Hlog true). Qed.
  (** The constant as computed *)
  Lemma const_close icon lgK kappa : (4 <= lgK <= 26)%nat -> (1 <= kappa <= 3)%Z -> exists x : f64,
    conf_eps flog icon lgK kappa = Some (fmul (f_of_Z kappa) (fdiv x (fsqrt (f_k lgK)))) /\ is_finite x = true /\ / 16384 <= B2R x <= 1 /\ rc (4 * u53) (B2R x) (err_const icon lgK kappa) /\ / 16384 <= err_const icon lgK kappa.
  Proof.
    intros HK Hk. destruct u53_small as (U0 & U1). unfold conf_eps, err_const. destruct (Nat.leb_spec lgK 14) as [L|L].
    - destruct (Z.ltb_spec (3 * (Z.of_nat lgK - 4) + (kappa - 1)) 0); [lia|]. replace (Z.to_nat (3 * (Z.of_nat lgK - 4) + (kappa - 1))) with (3 * (lgK - 4) + (Z.to_nat kappa - 1))%nat by lia.
      destruct (table_entry icon (3 * (lgK - 4) + (Z.to_nat kappa - 1)) ltac:(lia)) as (E & B). cbv zeta in E, B. rewrite E. cbn [bindo]. set (v := nth _ _ 0%Z) in *. clearbody v. eexists. split; [reflexivity|].
      destruct (of_Z_exact v ltac:(lia)) as (Fv & Vv). destruct (of_Z_exact 10000 ltac:(lia)) as (Ft & Vt). assert (Bv : 1 <= IZR v <= 10000) by (split; apply IZR_le; lia).
      destruct (div_spec (f_of_Z v) (f_of_Z 10000) 0) as (Vd & Fd & _); auto; [lia|rewrite Vt; lra|rewrite Vv, Vt, Rabs_pos_eq by lra; change (bpow radix2 0) with 1; lra|]. rewrite Vv, Vt in Vd.
      split; auto. rewrite Vd. split; [split; [apply rnd_ge; [change (/ 16384) with (bpow radix2 (-14)); apply fmt_bpow; lia|lra]|apply rnd_le_gen; [apply (fmt_IZR 1); lia|lra]]|]. split; [|lra].
      apply rc_le with u53; [lra|]. apply rc_rnd. rewrite Rabs_pos_eq by lra. apply Rle_trans with (bpow radix2 (-14)); [apply bpow_le; lia|]. change (bpow radix2 (-14)) with (/ 16384). lra.
    - destruct log2_val as (FL & BL). destruct (const_ok flog Hlog icon) as (Fx & Bx). cbv zeta in Fx, Bx. exists (if icon then icon_const flog else hip_const flog). split; [reflexivity|]. split; auto. split; [lra|].
      destruct icon; [split; [unfold icon_const; apply rc_refl; lra|lra]|]. destruct f2_val as (F2 & V2).
      destruct (div_spec (flog f_2) f_2 0) as (Vd & Fd & _); auto; [lia|lra|rewrite V2, Rabs_pos_eq by lra; change (bpow radix2 0) with 1; lra|]. rewrite V2 in Vd.
      assert (Bd : / 4 <= B2R (fdiv (flog f_2) f_2)) by (rewrite Vd; apply rnd_ge; [change (/ 4) with (bpow radix2 (-2)); apply fmt_bpow; lia|lra]).
      destruct (sqrt_spec (fdiv (flog f_2) f_2) Fd ltac:(lra)) as (Vs & Fs). assert (S4 : sqrt (/ 4) = / 2) by (replace (/ 4) with (/ 2 * / 2) by lra; apply sqrt_square; lra).
      split.
      + unfold hip_const. rewrite Vs. replace (4 * u53) with (2 * (u53 + u53)) by ring. apply rc_trans with (sqrt (B2R (fdiv (flog f_2) f_2))); [lra|lra| |].
        * apply rc_rnd. rewrite Rabs_pos_eq by apply sqrt_pos. apply Rle_trans with (/ 2); [change (/ 2) with (bpow radix2 (-1)); apply bpow_le; lia|]. rewrite <- S4. apply sqrt_le_1; lra.
        * apply rc_sqrt; [lra|lra|]. rewrite Vd. apply rc_rnd. rewrite Rabs_pos_eq by lra. apply Rle_trans with (/ 4); [change (/ 4) with (bpow radix2 (-2)); apply bpow_le; lia|lra].
      + apply Rle_trans with (sqrt (/ 4)); [lra|]. apply sqrt_le_1; lra.
  Qed.
  Lemma sqrt_K lgK : (4 <= lgK <= 26)%nat -> 4 <= sqrt (2 ^ lgK) <= 8192 /\ 2 ^ lgK = bpow radix2 (Z.of_nat lgK).
  Proof.
    intros H. assert (P : 2 ^ lgK = bpow radix2 (Z.of_nat lgK)) by (rewrite <- K_bpow, <- pow_IZR; reflexivity). split; auto. rewrite P.
    replace 4 with (sqrt (bpow radix2 4)) by (change (bpow radix2 4) with 16; replace 16 with (4 * 4) by lra; apply sqrt_square; lra). replace 8192 with (sqrt (bpow radix2 26)) by (change (bpow radix2 26) with 67108864; replace 67108864 with (8192 * 8192) by lra; apply sqrt_square; lra).
    split; apply sqrt_le_1; try apply bpow_ge_0; apply bpow_le; lia.
  Qed.
  Lemma eps_close icon lgK kappa : (4 <= lgK <= 26)%nat -> (1 <= kappa <= 3)%Z -> exists r, conf_eps flog icon lgK kappa = Some r /\ is_finite r = true /\ 0 <= B2R r <= 3 / 4 /\ rc (64 * u53) (B2R r) (err_eps icon lgK kappa) /\ 0 <= err_eps icon lgK kappa.
  Proof.
    intros HK Hk. destruct u53_small as (U0 & U1). destruct (conf_eps_ok flog Hlog icon lgK kappa HK Hk) as (r & Er & Fr & Br). destruct (const_close icon lgK kappa HK Hk) as (x & Ex & Fx & Bx & Cx & Px). exists r. split; auto. split; auto. split; auto.
    assert (EQ : B2R r = B2R (fmul (f_of_Z kappa) (fdiv x (fsqrt (f_k lgK))))). { rewrite Er in Ex. apply (f_equal (fun o => match o with Some x => B2R x | None => 0 end)) in Ex. exact Ex. }
    destruct (f_k_val lgK ltac:(lia)) as (Fk & Vk). destruct (sqrt_K lgK HK) as (SK & PK). destruct (sqrt_spec (f_k lgK) Fk) as (Vs & Fs); [rewrite Vk; apply bpow_ge_0|]. rewrite Vk, <- PK in Vs.
    assert (Bs : 4 <= B2R (fsqrt (f_k lgK)) <= 8192) by (rewrite Vs; split; [apply rnd_ge; [apply (fmt_IZR 4); lia|lra]|apply rnd_le_gen; [apply (fmt_IZR 8192); lia|lra]]).
    assert (Cs : rc u53 (B2R (fsqrt (f_k lgK))) (sqrt (2 ^ lgK))). { rewrite Vs. apply rc_rnd. rewrite Rabs_pos_eq by lra. apply Rle_trans with (bpow radix2 2); [apply bpow_le; lia|change (bpow radix2 2) with 4; lra]. }
    set (q := fsqrt (f_k lgK)) in *. assert (IQ : / 8192 <= / B2R q <= / 4) by (split; apply Rinv_le_contravar; lra).
    assert (Q : / 134217728 <= B2R x / B2R q <= 1). { unfold Rdiv. split; [apply Rle_trans with (/ 16384 * / 8192); [lra|apply Rmult_le_compat; lra]|apply Rle_trans with (1 * / 4); [apply Rmult_le_compat; lra|lra]]. }
    destruct (div_spec x q 0) as (Vd & Fd & _); auto; [lia|lra|rewrite Rabs_pos_eq by lra; change (bpow radix2 0) with 1; lra|].
    assert (Bd : / 134217728 <= B2R (fdiv x q) <= 1) by (rewrite Vd; split; [apply rnd_ge; [change (/ 134217728) with (bpow radix2 (-27)); apply fmt_bpow; lia|lra]|apply rnd_le_gen; [apply (fmt_IZR 1); lia|lra]]).
    assert (Cd : rc (30 * u53) (B2R (fdiv x q)) (err_const icon lgK kappa / sqrt (2 ^ lgK))).
    { rewrite Vd. replace (30 * u53) with (2 * (u53 + 14 * u53)) by ring. apply rc_trans with (B2R x / B2R q); [lra|lra| |].
      - apply rc_rnd. rewrite Rabs_pos_eq by lra. apply Rle_trans with (bpow radix2 (-27)); [apply bpow_le; lia|change (bpow radix2 (-27)) with (/ 134217728); lra].
      - unfold Rdiv. apply rc_le with (2 * (4 * u53 + 2 * u53)); [lra|]. apply rc_mul; [lra|lra|auto|]. apply rc_inv; [lra|lra|auto]. }
    destruct (kappa_val kappa Hk) as (Fkap & Vkap & Bkap).
    assert (BK : / 134217728 <= IZR kappa * B2R (fdiv x q) <= 4). { split; [rewrite <- (Rmult_1_l (/ 134217728)); apply Rmult_le_compat; lra|]. apply Rle_trans with (3 * 1); [apply Rmult_le_compat; lra|lra]. }
    destruct (mul_spec (f_of_Z kappa) (fdiv x q) 2) as (Vm & Fm & _); auto; [lia|rewrite Vkap, Rabs_pos_eq by lra; change (bpow radix2 2) with 4; lra|]. rewrite Vkap in Vm.
    split.
    - rewrite EQ, Vm. apply rc_le with (2 * (u53 + 30 * u53)); [lra|]. unfold err_eps. apply rc_trans with (IZR kappa * B2R (fdiv x q)); [lra|lra| |].
      + apply rc_rnd. rewrite Rabs_pos_eq by lra. apply Rle_trans with (bpow radix2 (-27)); [apply bpow_le; lia|change (bpow radix2 (-27)) with (/ 134217728); lra].
      + destruct Cd as (t & A & ->). exists t. split; auto. ring.
    - unfold err_eps. apply Rmult_le_pos; [lra|]. apply Rmult_le_pos; [lra|apply Rlt_le, Rinv_0_lt_compat; lra].
  Qed.
  Lemma quot_close (e f : f64) (p d : R) : 1 <= B2R e -> rc d (B2R f) p -> 1024 * u53 >= d -> 0 <= d -> / 8 <= p <= 2 -> / 8 <= B2R f <= 4 -> rc (8192 * u53) (rnd (B2R e / B2R f)) (B2R e / p).
  Proof.
    intros He C Hd D0 Hp Hf. destruct u53_small as (U0 & U1). assert (I : / 4 <= / B2R f) by (apply Rinv_le_contravar; lra). assert (Q : / 4 <= B2R e / B2R f) by (unfold Rdiv; rewrite <- (Rmult_1_l (/ 4)); apply Rmult_le_compat; lra).
    apply rc_le with (2 * (u53 + 2048 * u53)); [lra|]. apply rc_trans with (B2R e / B2R f); [lra|lra| |].
    - apply rc_rnd. rewrite Rabs_pos_eq by lra. apply Rle_trans with (bpow radix2 (-2)); [apply bpow_le; lia|change (bpow radix2 (-2)) with (/ 4); lra].
    - apply rc_le with (2 * d); [lra|]. destruct (rc_inv d (B2R f) p ltac:(lra) ltac:(lra) C) as (t & A & B). exists t. split; auto. unfold Rdiv. rewrite B. ring.
  Qed.
  Theorem conf_value icon lgK n (e : f64) kappa (lo up : f64) : (4 <= lgK <= 26)%nat -> (1 <= kappa <= 3)%Z -> (1 <= n <= 2 ^ 53)%Z -> is_finite e = true -> IZR n <= B2R e <= bpow radix2 300 ->
    conf_lower flog icon lgK n (Some e) kappa = Some lo -> conf_upper flog icon lgK n (Some e) kappa = Some up ->
    err_eps icon lgK kappa < 1 /\ Rabs (B2R lo - Rmax (IZR n) (B2R e / (1 + err_eps icon lgK kappa))) <= B2R e / 2 ^ 40 /\
    exists v, rc (/ 2 ^ 40) v (B2R e / (1 - err_eps icon lgK kappa)) /\ B2R up = IZR (Zceil v).
  Proof.
    intros HK Hk Hn Fe Be. destruct u53_small as (U0 & U1). destruct (eps_close icon lgK kappa HK Hk) as (r & Er & Fr & Br & Cr & Pr). unfold conf_lower, conf_upper. rewrite Er. cbn [bindo]. destruct (Z.eqb_spec n 0) as [->|_]; [lia|]. intros A1 A2.
    apply (f_equal (fun o => match o with Some x => B2R x | None => 0 end)) in A1, A2. cbv beta iota in A1, A2. assert (N1 : 1 <= IZR n) by (apply IZR_le; lia). destruct (of_Z_exact n ltac:(lia)) as (Fn & Vn).
    destruct (upper_ok e r Fe ltac:(lra) Fr Br) as (Fu & _ & D1 & W1 & V1). destruct (lower_ok e r Fe ltac:(lra) Fr ltac:(lra)) as (Fl & Bl & D2 & W2 & V2).
    set (p := err_eps icon lgK kappa) in *. destruct Cr as (t & Ht & Et). apply Rabs_le_inv in Ht as Ht'.
    assert (Pp : p <= 4 / 5). { destruct (Rle_or_lt p (4 / 5)) as [|C]; auto. exfalso. assert (4 / 5 * (1 - / 1048576) <= p * (1 + t)) by (apply Rmult_le_compat; lra). lra. }
    split; [lra|].
    assert (P40 : 8192 * u53 = / 2 ^ 40). { unfold u53. change 8192 with (bpow radix2 13). rewrite <- bpow_plus. change (13 + -53)%Z with (- (40))%Z. rewrite bpow_opp. f_equal. rewrite pow_IZR. reflexivity. }
    assert (TA : Rabs (p * t) <= 64 * u53). { rewrite Rabs_mult, (Rabs_pos_eq p) by lra. rewrite <- (Rmult_1_l (64 * u53)). apply Rmult_le_compat; auto using Rabs_pos; lra. } apply Rabs_le_inv in TA as TA'.
    assert (C2 : rc (512 * u53) (B2R (fadd f_1 r)) (1 + p)).
    { rewrite W2. apply rc_le with (2 * (u53 + 64 * u53)); [lra|]. apply rc_trans with (1 + B2R r); [lra|lra| |].
      - apply rc_rnd. rewrite Rabs_pos_eq by lra. apply Rle_trans with (bpow radix2 0); [apply bpow_le; lia|change (bpow radix2 0) with 1; lra].
      - exists (p * t / (1 + p)). split; [|rewrite Et; field; lra]. unfold Rdiv. rewrite Rabs_mult, (Rabs_pos_eq (/ (1 + p))) by (apply Rlt_le, Rinv_0_lt_compat; lra). rewrite <- (Rmult_1_r (64 * u53)). apply Rmult_le_compat; auto using Rabs_pos; [apply Rlt_le, Rinv_0_lt_compat; lra|].
        rewrite <- Rinv_1. apply Rinv_le_contravar; lra. }
    assert (C1 : rc (1024 * u53) (B2R (fsub f_1 r)) (1 - p)).
    { rewrite W1. apply rc_le with (2 * (u53 + 320 * u53)); [lra|]. apply rc_trans with (1 - B2R r); [lra|lra| |].
      - apply rc_rnd. rewrite Rabs_pos_eq by lra. apply Rle_trans with (bpow radix2 (-2)); [apply bpow_le; lia|change (bpow radix2 (-2)) with (/ 4); lra].
      - exists (- (p * t) / (1 - p)). split; [|rewrite Et; field; lra]. unfold Rdiv. rewrite Rabs_mult, Rabs_Ropp, (Rabs_pos_eq (/ (1 - p))) by (apply Rlt_le, Rinv_0_lt_compat; lra). replace (320 * u53) with (64 * u53 * 5) by ring. apply Rmult_le_compat; auto using Rabs_pos; [apply Rlt_le, Rinv_0_lt_compat; lra|].
        rewrite <- (Rinv_involutive 5) by lra. apply Rinv_le_contravar; lra. }
    assert (L : rc (8192 * u53) (B2R (fdiv e (fadd f_1 r))) (B2R e / (1 + p))).
    { rewrite V2. apply quot_close with (512 * u53); auto; try lra. split; [lra|]. rewrite W2. apply rnd_le_gen; [apply (fmt_IZR 4); lia|lra]. }
    assert (U : rc (8192 * u53) (B2R (fdiv e (fsub f_1 r))) (B2R e / (1 - p))).
    { rewrite V1. apply quot_close with (1024 * u53); auto; try lra. split; [lra|]. rewrite W1. apply rnd_le_gen; [apply (fmt_IZR 4); lia|lra]. }
    rewrite P40 in L, U. split.
    - destruct L as (s & Hs & Es). assert (G : 0 <= B2R e / (1 + p) <= B2R e). { unfold Rdiv. assert (0 <= / (1 + p) <= 1) by (split; [apply Rlt_le, Rinv_0_lt_compat; lra|rewrite <- Rinv_1; apply Rinv_le_contravar; lra]). split; [apply Rmult_le_pos; lra|]. rewrite <- (Rmult_1_r (B2R e)) at 2. apply Rmult_le_compat_l; lra. }
      assert (D : Rabs (B2R (fdiv e (fadd f_1 r)) - B2R e / (1 + p)) <= B2R e / 2 ^ 40).
      { rewrite Es. replace (B2R e / (1 + p) * (1 + s) - B2R e / (1 + p)) with (B2R e / (1 + p) * s) by ring. rewrite Rabs_mult, (Rabs_pos_eq (B2R e / (1 + p))) by lra. unfold Rdiv at 2. apply Rmult_le_compat; auto using Rabs_pos; lra. }
      rewrite <- A1. apply Rabs_le_inv in D. destruct (flt (fdiv e (fadd f_1 r)) (f_of_Z n)) eqn:C.
      + apply (flt_spec _ _ Fl Fn) in C. rewrite Vn in *. unfold Rmax. destruct (Rle_dec (IZR n) (B2R e / (1 + p))); apply Rabs_le; lra.
      + apply flt_false in C; auto. rewrite Vn in C. unfold Rmax. destruct (Rle_dec (IZR n) (B2R e / (1 + p))); apply Rabs_le; lra.
    - eexists. split; [exact U|]. rewrite <- A2. destruct (ceil_spec _ Fu) as (-> & _). reflexivity.
  Qed.
End Log.
