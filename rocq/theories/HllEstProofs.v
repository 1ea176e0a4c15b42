(** * Proofs on the hll estimators in binary64 *)
From Coq Require Import ZArith Reals Bool Psatz.
From Flocq Require Import Core Relative BinarySingleNaN.
From Verif Require Import Base Bytes Arr FloatModel FloatProofs ReqRankProofs HllModel HllPack HllArrProofs HllMode HllUnion HllEstTables HllEstModel.
From Coq Require Import Rdefinitions.
Local Open Scope R_scope.

(** ** Exact literals *)
(** A non-negative float64 that is exactly q * 2^e *)
Definition good (f : f64) (q e : Z) : Prop := is_finite f = true /\ B2R f = IZR q * bpow radix2 e /\ Bsign f = false.

Lemma fmt_lit m e : (Z.abs m <= 2 ^ 53)%Z -> (-1074 <= e)%Z -> fmt (IZR m * bpow radix2 e).
Proof.
  intros H He. destruct (Z.eq_dec (Z.abs m) (2 ^ 53)) as [E|E].
  - assert (C : m = (2 ^ 53)%Z \/ m = (- 2 ^ 53)%Z) by lia. destruct C as [->| ->].
    + change (IZR (2 ^ 53)) with (bpow radix2 53). rewrite <- bpow_plus. apply fmt_bpow. lia.
    + change (- 2 ^ 53)%Z with (- (2 ^ 53))%Z. rewrite opp_IZR. rewrite <- Ropp_mult_distr_l. apply generic_format_opp. change (IZR (2 ^ 53)) with (bpow radix2 53).
      rewrite <- bpow_plus. apply fmt_bpow. lia.
  - apply generic_format_FLT with (prec := 53%Z) (emin := (-1074)%Z).
    apply (FLT_spec radix2 (-1074) 53 _ (Float radix2 m e)).
    + reflexivity.
    + cbn [Fnum]. change (Zpower radix2 53) with (2 ^ 53)%Z. lia.
    + cbn [Fexp]. lia.
Qed.
Lemma lit_spec m e : (Z.abs m <= 2 ^ 53)%Z -> (-1074 <= e <= 900)%Z -> is_finite (f_lit m e) = true /\ B2R (f_lit m e) = IZR m * bpow radix2 e.
Proof.
  intros H He. pose proof (binary_normalize_correct 53 1024 _ _ mode_NE m e false) as C. cbv zeta in C.
  change (F2R (Float radix2 m e)) with (IZR m * bpow radix2 e) in C. rewrite (rnd_id _ (fmt_lit m e H ltac:(lia))) in C.
  rewrite (big_lt _ (53 + e)) in C.
  - destruct C as (A & B & _). split; auto.
  - lia.
  - rewrite Rabs_mult, (Rabs_pos_eq (bpow radix2 e)) by apply bpow_ge_0. rewrite bpow_plus. apply Rmult_le_compat_r; [apply bpow_ge_0|].
    rewrite <- abs_IZR. change (bpow radix2 53) with (IZR (2 ^ 53)). apply IZR_le. exact H.
Qed.
Lemma good_lit m e : (0 <= m <= 2 ^ 53)%Z -> (-1074 <= e <= 900)%Z -> good (f_lit m e) m e.
Proof.
  intros H He. destruct (lit_spec m e) as (A & B); [lia|auto|]. split; auto. split; auto.
  pose proof (binary_normalize_correct 53 1024 _ _ mode_NE m e false) as C. cbv zeta in C.
  change (F2R (Float radix2 m e)) with (IZR m * bpow radix2 e) in C. rewrite (rnd_id _ (fmt_lit m e ltac:(lia) ltac:(lia))) in C.
  rewrite (big_lt _ (53 + e)) in C.
  - destruct C as (_ & _ & C). unfold f_lit. rewrite C. assert (P : 0 <= IZR m * bpow radix2 e). { apply Rmult_le_pos; [apply IZR_le; lia|apply bpow_ge_0]. }
    destruct (Rcompare_spec (IZR m * bpow radix2 e) 0); auto. lra.
  - lia.
  - rewrite Rabs_mult, (Rabs_pos_eq (bpow radix2 e)) by apply bpow_ge_0. rewrite bpow_plus. apply Rmult_le_compat_r; [apply bpow_ge_0|].
    rewrite <- abs_IZR. change (bpow radix2 53) with (IZR (2 ^ 53)). apply IZR_le. lia.
Qed.
Lemma good_unique f g q e : good f q e -> good g q e -> f = g.
Proof. intros (A & B & C) (A' & B' & C'). apply B2R_Bsign_inj; auto; congruence. Qed.

Lemma good_add f g p q e : good f p e -> good g q e -> (0 <= p)%Z -> (0 <= q)%Z -> (p + q <= 2 ^ 53)%Z -> (-1074 <= e <= 900)%Z -> good (fadd f g) (p + q) e.
Proof.
  intros (Ff & Vf & Sf) (Fg & Vg & Sg) Hp Hq Hs He.
  assert (S : B2R f + B2R g = IZR (p + q) * bpow radix2 e) by (rewrite Vf, Vg, plus_IZR; lra).
  pose proof (Bplus_correct 53 1024 _ _ mode_NE f g Ff Fg) as C. rewrite S, (rnd_id _ (fmt_lit (p + q) e ltac:(lia) ltac:(lia))) in C.
  rewrite (big_lt _ (53 + e)) in C.
  - destruct C as (A & B & C). split; auto. split; [exact A|]. unfold fadd. rewrite C, Sf, Sg.
    assert (P : 0 <= IZR (p + q) * bpow radix2 e). { apply Rmult_le_pos; [apply IZR_le; lia|apply bpow_ge_0]. }
    destruct (Rcompare_spec (IZR (p + q) * bpow radix2 e) 0); auto. lra.
  - lia.
  - rewrite Rabs_mult, (Rabs_pos_eq (bpow radix2 e)) by apply bpow_ge_0. rewrite bpow_plus. apply Rmult_le_compat_r; [apply bpow_ge_0|].
    rewrite <- abs_IZR. change (bpow radix2 53) with (IZR (2 ^ 53)). apply IZR_le. lia.
Qed.
Lemma good_sub f g p q e : good f p e -> good g q e -> (0 <= q <= p)%Z -> (p <= 2 ^ 53)%Z -> (-1074 <= e <= 900)%Z -> good (fsub f g) (p - q) e.
Proof.
  intros (Ff & Vf & Sf) (Fg & Vg & Sg) Hp Hs He.
  assert (S : B2R f - B2R g = IZR (p - q) * bpow radix2 e) by (rewrite Vf, Vg, minus_IZR; lra).
  pose proof (Bminus_correct 53 1024 _ _ mode_NE f g Ff Fg) as C. rewrite S, (rnd_id _ (fmt_lit (p - q) e ltac:(lia) ltac:(lia))) in C.
  rewrite (big_lt _ (53 + e)) in C.
  - destruct C as (A & B & C). split; auto. split; [exact A|]. unfold fsub. rewrite C, Sf, Sg.
    assert (P : 0 <= IZR (p - q) * bpow radix2 e). { apply Rmult_le_pos; [apply IZR_le; lia|apply bpow_ge_0]. }
    destruct (Rcompare_spec (IZR (p - q) * bpow radix2 e) 0); auto. lra.
  - lia.
  - rewrite Rabs_mult, (Rabs_pos_eq (bpow radix2 e)) by apply bpow_ge_0. rewrite bpow_plus. apply Rmult_le_compat_r; [apply bpow_ge_0|].
    rewrite <- abs_IZR. change (bpow radix2 53) with (IZR (2 ^ 53)). apply IZR_le. lia.
Qed.
Lemma good_shift f q e k : (0 <= k)%Z -> good f q (e + k) -> good f (q * 2 ^ k) e.
Proof.
  intros Hk (A & B & C). split; auto. split; auto. rewrite B, mult_IZR, bpow_plus. rewrite <- (IZR_Zpower radix2 k Hk). change (Z.pow (radix_val radix2) k) with (2 ^ k)%Z. ring.
Qed.

(** ** kxq0 and kxq1 are exact *)
Lemma inv_good0 v : (v < 32)%N -> good (inv_pow2 v) (inv0 v) (-31).
Proof.
  intros H. unfold inv0. destruct (N.ltb_spec v 32); [|lia]. replace (2 ^ (31 - Z.of_N v))%Z with (1 * 2 ^ (31 - Z.of_N v))%Z by lia.
  apply good_shift; [lia|]. replace (-31 + (31 - Z.of_N v))%Z with (- Z.of_N v)%Z by lia. apply good_lit; lia.
Qed.
Lemma inv_good1 v : (32 <= v < 64)%N -> good (inv_pow2 v) (inv1 v) (-63).
Proof.
  intros H. unfold inv1. destruct (N.ltb_spec v 32); [lia|]. replace (2 ^ (63 - Z.of_N v))%Z with (1 * 2 ^ (63 - Z.of_N v))%Z by lia.
  apply good_shift; [lia|]. replace (-63 + (63 - Z.of_N v))%Z with (- Z.of_N v)%Z by lia. apply good_lit; lia.
Qed.
Lemma inv0_bound v : (0 <= inv0 v <= 2 ^ 31)%Z.
Proof. unfold inv0. destruct (N.ltb_spec v 32); [|lia]. split; [apply Z.pow_nonneg; lia|apply Z.pow_le_mono_r; lia]. Qed.
Lemma inv1_bound v : (v < 64)%N -> (0 <= inv1 v <= 2 ^ 31)%Z.
Proof. intros Hv. unfold inv1. destruct (N.ltb_spec v 32); [lia|]. split; [apply Z.pow_nonneg; lia|apply Z.pow_le_mono_r; lia]. Qed.

Lemma kxq_step_exact old new k0 k1 : (old < 64)%N -> (new < 64)%N -> (inv0 old <= k0 <= 2 ^ 52)%Z -> (inv1 old <= k1 <= 2 ^ 52)%Z ->
  kxq_step old new (kxq_of k0 k1) = kxq_of (k0 - inv0 old + inv0 new) (k1 - inv1 old + inv1 new).
Proof.
  intros Ho Hn H0 H1. pose proof (inv0_bound old). pose proof (inv0_bound new). pose proof (inv1_bound old Ho). pose proof (inv1_bound new Hn).
  unfold kxq_step, kxq_of. cbn [fst snd].
  assert (G0 : good (f_lit k0 (-31)) k0 (-31)) by (apply good_lit; lia). assert (G1 : good (f_lit k1 (-63)) k1 (-63)) by (apply good_lit; lia).
  destruct (N.ltb_spec old 32) as [Lo|Lo]; cbn [fst snd].
  - assert (Z1 : inv1 old = 0%Z) by (unfold inv1; destruct (N.ltb_spec old 32); lia).
    pose proof (good_sub _ _ _ _ _ G0 (inv_good0 old Lo) ltac:(lia) ltac:(lia) ltac:(lia)) as S0.
    destruct (N.ltb_spec new 32) as [Ln|Ln]; cbn [fst snd].
    + assert (Z2 : inv1 new = 0%Z) by (unfold inv1; destruct (N.ltb_spec new 32); lia). rewrite Z1, Z2, Z.sub_0_r, Z.add_0_r. f_equal.
      eapply good_unique; [apply good_add; [exact S0|apply inv_good0; auto|lia..]|apply good_lit; lia].
    + assert (Z2 : inv0 new = 0%Z) by (unfold inv0; destruct (N.ltb_spec new 32); lia). rewrite Z1, Z2, Z.sub_0_r, Z.add_0_r. f_equal.
      * eapply good_unique; [exact S0|apply good_lit; lia].
      * eapply good_unique; [apply good_add; [exact G1|apply inv_good1; lia|lia..]|apply good_lit; lia].
  - assert (Z1 : inv0 old = 0%Z) by (unfold inv0; destruct (N.ltb_spec old 32); lia).
    pose proof (good_sub _ _ _ _ _ G1 (inv_good1 old ltac:(lia)) ltac:(lia) ltac:(lia) ltac:(lia)) as S1.
    destruct (N.ltb_spec new 32) as [Ln|Ln]; cbn [fst snd].
    + assert (Z2 : inv1 new = 0%Z) by (unfold inv1; destruct (N.ltb_spec new 32); lia). rewrite Z1, Z2, Z.sub_0_r, Z.add_0_r. f_equal.
      * eapply good_unique; [apply good_add; [exact G0|apply inv_good0; auto|lia..]|apply good_lit; lia].
      * eapply good_unique; [exact S1|apply good_lit; lia].
    + assert (Z2 : inv0 new = 0%Z) by (unfold inv0; destruct (N.ltb_spec new 32); lia). rewrite Z1, Z2, Z.sub_0_r, Z.add_0_r. f_equal.
      eapply good_unique; [apply good_add; [exact S1|apply inv_good1; lia|lia..]|apply good_lit; lia].
Qed.

(** The rebuilt sums, when all registers are below 32 *)
Lemma good_add_neg f g p q e : good f p e -> is_finite g = true -> B2R g = - (IZR q * bpow radix2 e) -> (0 <= q < p)%Z -> (p <= 2 ^ 53)%Z -> (-1074 <= e <= 900)%Z ->
  good (fadd f g) (p - q) e.
Proof.
  intros (Ff & Vf & Sf) Fg Vg Hp Hs He.
  assert (S : B2R f + B2R g = IZR (p - q) * bpow radix2 e) by (rewrite Vf, Vg, minus_IZR; lra).
  pose proof (Bplus_correct 53 1024 _ _ mode_NE f g Ff Fg) as C. rewrite S, (rnd_id _ (fmt_lit (p - q) e ltac:(lia) ltac:(lia))) in C.
  rewrite (big_lt _ (53 + e)) in C.
  - destruct C as (A & B & C). split; auto. split; [exact A|]. unfold fadd. rewrite C.
    assert (P : 0 < IZR (p - q) * bpow radix2 e). { apply Rmult_lt_0_compat; [apply IZR_lt; lia|apply bpow_gt_0]. }
    destruct (Rcompare_spec (IZR (p - q) * bpow radix2 e) 0); auto; lra.
  - lia.
  - rewrite Rabs_mult, (Rabs_pos_eq (bpow radix2 e)) by apply bpow_ge_0. rewrite bpow_plus. apply Rmult_le_compat_r; [apply bpow_ge_0|].
    rewrite <- abs_IZR. change (bpow radix2 53) with (IZR (2 ^ 53)). apply IZR_le. lia.
Qed.
Lemma f1_val : is_finite f_1 = true /\ B2R f_1 = 1.
Proof. split; [vm_compute; reflexivity|]. destruct (of_Z_spec 1 0) as (A & _ & _); [lia|cbn; lia|]. unfold f_1. rewrite A. apply rnd_id. apply fmt_IZR. cbn. lia. Qed.
Lemma inv_minus_1 v : (0 < v < 32)%N -> is_finite (fsub (inv_pow2 v) f_1) = true /\ B2R (fsub (inv_pow2 v) f_1) = - (IZR (2 ^ 31 - inv0 v) * bpow radix2 (-31)).
Proof.
  intros H. destruct (inv_good0 v ltac:(lia)) as (A & B & _). destruct f1_val as (F1 & V1). pose proof (inv0_bound v).
  assert (E : B2R (inv_pow2 v) - B2R f_1 = IZR (inv0 v - 2 ^ 31) * bpow radix2 (-31)).
  { rewrite B, V1, minus_IZR. change (bpow radix2 (-31)) with (/ 2147483648). change (IZR (2 ^ 31)) with 2147483648. lra. }
  destruct (sub_spec (inv_pow2 v) f_1 0) as (P & Q & _); auto; try lia.
  { rewrite E. rewrite Rabs_mult, <- abs_IZR, (Rabs_pos_eq (bpow radix2 (-31))) by apply bpow_ge_0.
    replace (bpow radix2 0) with (IZR (2 ^ 31) * bpow radix2 (-31)) by (change (bpow radix2 (-31)) with (/ 2147483648); change (IZR (2 ^ 31)) with 2147483648; change (bpow radix2 0) with 1; lra).
    apply Rmult_le_compat_r; [apply bpow_ge_0|]. apply IZR_le. lia. }
  split; auto. rewrite P, E, rnd_id by (apply fmt_lit; lia). rewrite !minus_IZR. ring.
Qed.

Definition sum0 (rs : list N) : Z := fold_right Z.add 0%Z (map inv0 rs).
Lemma rebuild_low : forall rs k0 q1, Forall (fun v => v < 32)%N rs -> (Z.of_nat (length rs) * 2 ^ 31 <= k0 <= 2 ^ 52)%Z ->
  rebuild_kxq rs (f_lit k0 (-31), q1) = (f_lit (k0 - Z.of_nat (length rs) * 2 ^ 31 + sum0 rs) (-31), q1).
Proof.
  induction rs as [|v rs IH]; intros k0 q1 Hv Hk.
  - cbn [rebuild_kxq]. f_equal. f_equal. unfold sum0. cbn [map fold_right length]. lia.
  - inversion Hv as [|? ? Hv1 Hv2]; subst. cbn [rebuild_kxq]. cbn [length] in *. change (sum0 (v :: rs)) with (inv0 v + sum0 rs)%Z.
    pose proof (inv0_bound v). destruct (N.ltb_spec 0 v) as [P|P].
    + destruct (N.ltb_spec v 32); [|lia]. cbn [fst snd].
      destruct (inv_minus_1 v ltac:(lia)) as (A & B).
      assert (I1 : (1 <= inv0 v)%Z). { unfold inv0. destruct (N.ltb_spec v 32); [|lia]. assert (0 < 2 ^ (31 - Z.of_N v))%Z by (apply Z.pow_pos_nonneg; lia). lia. }
      replace (fadd (f_lit k0 (-31)) (fsub (inv_pow2 v) f_1)) with (f_lit (k0 - (2 ^ 31 - inv0 v)) (-31)).
      * rewrite IH by (auto; lia). f_equal. f_equal. lia.
      * symmetry. eapply good_unique; [apply good_add_neg; [apply good_lit; lia|exact A|exact B|lia..]|apply good_lit; lia].
    + assert (v = 0%N) by lia. subst v. rewrite IH by (auto; lia). f_equal. f_equal. change (inv0 0) with (2 ^ 31)%Z. lia.
Qed.

(** ** Relative errors *)
Definition u : R := bpow radix2 (-53).
Lemma u_val : u = / 9007199254740992. Proof. reflexivity. Qed.
(** x approximates y up to k units of relative error *)
Definition near (x y k : R) : Prop := Rabs (x - y) <= k * u * Rabs y.
Lemma near_refl x : near x x 0.
Proof. unfold near. replace (x - x) with 0 by ring. rewrite Rabs_R0. lra. Qed.
Lemma near_mul c x y k : near x y k -> near (c * x) (c * y) k.
Proof.
  unfold near. intros H. replace (c * x - c * y) with (c * (x - y)) by ring. rewrite !Rabs_mult. pose proof (Rabs_pos c).
  replace (k * u * (Rabs c * Rabs y)) with (Rabs c * (k * u * Rabs y)) by ring. apply Rmult_le_compat_l; auto.
Qed.
Lemma near_rnd x y k : 0 <= k <= 64 -> near x y k -> y = 0 \/ bpow radix2 (-1000) <= Rabs y -> near (rnd x) y (k + 2).
Proof.
  unfold near. intros Hk H Hy. rewrite u_val in *. destruct Hy as [-> |Hy].
  - assert (x = 0). { rewrite Rabs_R0 in H. rewrite Rmult_0_r in H. apply Rabs_le_inv in H. lra. } subst x. rewrite round_0 by typeclasses eauto.
    replace (0 - 0) with 0 by ring. rewrite Rabs_R0. lra.
  - assert (Hx : Rabs x <= 2 * Rabs y /\ Rabs y <= 2 * Rabs x).
    { pose proof (Rabs_triang (x - y) y) as T1. replace (x - y + y) with x in T1 by ring. pose proof (Rabs_triang (y - x) x) as T2. replace (y - x + x) with y in T2 by ring.
      rewrite Rabs_minus_sym in T2. pose proof (Rabs_pos y). nra. }
    destruct (rnd_rel x) as (eps & A & B).
    { pose proof (bpow_le radix2 (-1022) (-1001) ltac:(lia)). assert (bpow radix2 (-1000) = 2 * bpow radix2 (-1001)) by (change (-1000)%Z with (1 + -1001)%Z; rewrite bpow_plus; change (bpow radix2 1) with 2; ring). lra. }
    rewrite B. replace (x * (1 + eps) - y) with ((x - y) + x * eps) by ring. eapply Rle_trans; [apply Rabs_triang|]. rewrite Rabs_mult.
    change (bpow radix2 (-53)) with (/ 9007199254740992) in A. pose proof (Rabs_pos x). pose proof (Rabs_pos eps).
    assert (Rabs x * Rabs eps <= 2 * Rabs y * / 9007199254740992) by (apply Rmult_le_compat; lra). lra.
Qed.
Lemma near_div x a d b k1 k2 : 0 <= k1 <= 64 -> 0 <= k2 <= 64 -> b <> 0 -> near x a k1 -> near d b k2 -> d <> 0 /\ Rabs b <= 2 * Rabs d /\ near (x / d) (a / b) (2 * (k1 + k2)).
Proof.
  unfold near. intros H1 H2 Hb Hx Hd. rewrite u_val in *. assert (Pb : 0 < Rabs b) by (apply Rabs_pos_lt; auto).
  assert (Db : Rabs b <= 2 * Rabs d). { pose proof (Rabs_triang (b - d) d) as T. replace (b - d + d) with b in T by ring. rewrite (Rabs_minus_sym b d) in T. nra. }
  assert (Nd : d <> 0). { intros ->. rewrite Rabs_R0 in Db. lra. } split; auto. split; auto.
  assert (Pd : 0 < Rabs d) by (apply Rabs_pos_lt; auto).
  replace (x / d - a / b) with ((x - a) * / d + (a / b) * ((b - d) * / d)) by (field; auto).
  eapply Rle_trans; [apply Rabs_triang|]. rewrite !Rabs_mult. rewrite (Rabs_minus_sym b d). unfold Rdiv. rewrite Rabs_mult, !Rabs_inv.
  assert (I : / Rabs d <= 2 * / Rabs b). { apply Rmult_le_reg_l with (Rabs d); auto. rewrite Rinv_r by lra. apply Rmult_le_reg_r with (Rabs b); auto. replace (Rabs d * (2 * / Rabs b) * Rabs b) with (2 * Rabs d) by (field; lra). lra. }
  pose proof (Rabs_pos a). pose proof (Rinv_0_lt_compat _ Pb). pose proof (Rinv_0_lt_compat _ Pd).
  assert (A1 : Rabs (x - a) * / Rabs d <= (k1 * / 9007199254740992 * Rabs a) * (2 * / Rabs b)) by (apply Rmult_le_compat; auto using Rabs_pos; lra).
  assert (A2 : Rabs (d - b) * / Rabs d <= (k2 * / 9007199254740992 * Rabs b) * (2 * / Rabs b)) by (apply Rmult_le_compat; auto using Rabs_pos; lra).
  replace (k2 * / 9007199254740992 * Rabs b * (2 * / Rabs b)) with (2 * k2 * / 9007199254740992) in A2 by (field; lra).
  assert (A3 : Rabs a * / Rabs b * (Rabs (d - b) * / Rabs d) <= Rabs a * / Rabs b * (2 * k2 * / 9007199254740992)).
  { apply Rmult_le_compat_l; auto. apply Rmult_le_pos; lra. }
  lra.
Qed.
