(** * Normalised and natural ranks in binary64: what the rounding can and cannot do. *)
From Coq Require Import ZArith Bool List Lia Lra Reals.
From Flocq Require Import Core BinarySingleNaN Relative.
From Verif Require Import Base FloatModel FloatProofs RankModel.
Import ListNotations.
Local Open Scope R_scope.

Lemma one_val : B2R f_one = 1 /\ is_finite f_one = true.
Proof.
  destruct (of_Z_spec 1 1) as (E & F & _); try lia. split; auto. unfold f_one. rewrite E.
  apply rnd_id. apply (fmt_IZR 1). lia.
Qed.
Lemma zero_val : B2R f_zero = 0 /\ is_finite f_zero = true.
Proof. split; reflexivity. Qed.

Lemma of_Z_val z : (Z.abs z <= 2 ^ 53)%Z -> B2R (f_of_Z z) = IZR z /\ is_finite (f_of_Z z) = true.
Proof.
  intros H. destruct (of_Z_spec z 53) as (E & F & _); try lia. split; auto. rewrite E. apply rnd_id. apply fmt_IZR. lia.
Qed.
Lemma of_N_fin (n : N) : (n < 2 ^ 64)%N -> is_finite (f_of_Z (Z.of_N n)) = true /\ B2R (f_of_Z (Z.of_N n)) = rnd (IZR (Z.of_N n)) /\
  0 <= B2R (f_of_Z (Z.of_N n)) <= bpow radix2 64.
Proof.
  intros H. destruct (of_Z_spec (Z.of_N n) 64) as (E & F & B); try lia. split; auto. split; auto.
  assert (0 <= rnd (IZR (Z.of_N n))) by (apply rnd_nonneg; apply IZR_le; lia). rewrite E in *. rewrite Rabs_pos_eq in B; auto.
Qed.
Lemma of_N_ge1 (n : N) : (0 < n < 2 ^ 64)%N -> 1 <= B2R (f_of_Z (Z.of_N n)).
Proof.
  intros H. destruct (of_N_fin n) as (_ & E & _); [lia|]. rewrite E. apply rnd_ge; [apply (fmt_IZR 1); lia|]. apply IZR_le. lia.
Qed.

(** The error of one rounding *)
Lemma rnd_abs_err x e : (-1000 <= e)%Z -> Rabs x <= bpow radix2 e -> Rabs (rnd x - x) <= bpow radix2 (e - 53).
Proof.
  intros He H. eapply Rle_trans; [apply error_le_half_ulp; typeclasses eauto|].
  assert (U : ulp radix2 (SpecFloat.fexp 53 1024) x <= bpow radix2 (e - 52)).
  { eapply Rle_trans.
    - apply ulp_le with (y := bpow radix2 e); [typeclasses eauto| |].
      + apply FLT_exp_monotone.
      + rewrite (Rabs_pos_eq (bpow radix2 e)) by apply bpow_ge_0. exact H.
    - rewrite ulp_bpow. apply bpow_le. unfold SpecFloat.fexp, SpecFloat.emin. lia. }
  replace (e - 52)%Z with (1 + (e - 53))%Z in U by lia. rewrite bpow_plus in U. change (bpow radix2 1) with 2 in U. lra.
Qed.

(** Rounding to an integer *)
Lemma round_int (f : R -> Z) x : round radix2 (FIX_exp 0) f x = IZR (f x).
Proof.
  unfold round, F2R, scaled_mantissa, cexp, FIX_exp. cbn [Fnum Fexp]. change (- 0)%Z with 0%Z. change (bpow radix2 0) with 1. now rewrite !Rmult_1_r.
Qed.
Lemma ceil_spec (x : f64) : is_finite x = true -> B2R (fceil x) = IZR (Zceil (B2R x)) /\ is_finite (fceil x) = true.
Proof. intros F. destruct (Bnearbyint_correct 53 1024 _ mode_UP x) as (E & F' & _). unfold fceil. rewrite E, F', round_int. auto. Qed.
Lemma floor_spec (x : f64) : is_finite x = true -> B2R (ffloor x) = IZR (Zfloor (B2R x)) /\ is_finite (ffloor x) = true.
Proof. intros F. destruct (Bnearbyint_correct 53 1024 _ mode_DN x) as (E & F' & _). unfold ffloor. rewrite E, F', round_int. auto. Qed.
Lemma nearest_spec (x : f64) : is_finite x = true -> B2R (fround x) = IZR (ZnearestA (B2R x)) /\ is_finite (fround x) = true.
Proof. intros F. destruct (Bnearbyint_correct 53 1024 _ mode_NA x) as (E & F' & _). unfold fround. rewrite E, F', round_int. auto. Qed.
Lemma to_int64_spec (x : f64) z : is_finite x = true -> B2R x = IZR z -> (- 2 ^ 63 <= z < 2 ^ 63)%Z -> to_int64 x = Ans z.
Proof.
  intros F E H. unfold to_int64. rewrite F. pose proof (Btrunc_correct 53 1024 _ x) as T. rewrite round_int, E, Ztrunc_IZR in T.
  apply eq_IZR in T. rewrite T. destruct (Z.leb_spec (- 2 ^ 63) z); [|lia]. destruct (Z.ltb_spec z (2 ^ 63)); [reflexivity|lia].
Qed.

(** ** Normalised ranks *)
Lemma norm_rank_spec c n : (0 < n < 2 ^ 64)%N -> (c <= n)%N ->
  is_finite (norm_rank c n) = true /\ B2R (norm_rank c n) = rnd (rnd (IZR (Z.of_N c)) / rnd (IZR (Z.of_N n))) /\ 0 <= B2R (norm_rank c n) <= 1.
Proof.
  intros Hn Hc. destruct (of_N_fin c) as (Fc & Ec & Bc); [lia|]. destruct (of_N_fin n) as (Fn & En & Bn); [lia|]. pose proof (of_N_ge1 n Hn) as G.
  assert (L : B2R (f_of_Z (Z.of_N c)) <= B2R (f_of_Z (Z.of_N n))).
  { rewrite Ec, En. apply rnd_le. apply IZR_le. lia. }
  assert (Q : 0 <= B2R (f_of_Z (Z.of_N c)) / B2R (f_of_Z (Z.of_N n)) <= 1).
  { split; [apply Rmult_le_pos; [lra|left; apply Rinv_0_lt_compat; lra]|]. apply Rmult_le_reg_r with (B2R (f_of_Z (Z.of_N n))); [lra|].
    unfold Rdiv. rewrite Rmult_assoc, Rinv_l by lra. lra. }
  destruct (div_spec (f_of_Z (Z.of_N c)) (f_of_Z (Z.of_N n)) 0) as (E & F & B); auto; try lia; try lra.
  { rewrite Rabs_pos_eq by lra. change (bpow radix2 0) with 1. lra. }
  split; [exact F|]. unfold norm_rank. split; [rewrite E, Ec, En; reflexivity|]. rewrite E in *. split; [apply rnd_nonneg; lra|].
  apply rnd_le_gen; [apply (fmt_IZR 1); lia|lra].
Qed.
Lemma norm_rank_val c n : (0 < n <= 2 ^ 53)%N -> (c <= n)%N -> B2R (norm_rank c n) = rnd (IZR (Z.of_N c) / IZR (Z.of_N n)).
Proof.
  intros Hn Hc. destruct (norm_rank_spec c n) as (_ & E & _); try lia. rewrite E. rewrite !(rnd_id (IZR _)); auto; apply fmt_IZR; lia.
Qed.
Lemma norm_rank_mono c d n : (0 < n < 2 ^ 64)%N -> (c <= d <= n)%N -> B2R (norm_rank c n) <= B2R (norm_rank d n).
Proof.
  intros Hn H. destruct (norm_rank_spec c n) as (_ & Ec & _); try lia. destruct (norm_rank_spec d n) as (_ & Ed & _); try lia.
  destruct (of_N_fin n) as (_ & En & _); [lia|]. pose proof (of_N_ge1 n Hn) as G. rewrite En in G. rewrite Ec, Ed. apply rnd_le.
  apply Rmult_le_compat_r; [left; apply Rinv_0_lt_compat; lra|]. apply rnd_le. apply IZR_le. lia.
Qed.
Lemma norm_rank_0 n : (0 < n < 2 ^ 64)%N -> B2R (norm_rank 0 n) = 0.
Proof.
  intros Hn. destruct (norm_rank_spec 0 n) as (_ & E & _); try lia. rewrite E. rewrite (rnd_id (IZR (Z.of_N 0))) by apply fmt_0.
  change (IZR (Z.of_N 0)) with 0. unfold Rdiv. rewrite Rmult_0_l. apply rnd_id, fmt_0.
Qed.
Lemma norm_rank_n n : (0 < n < 2 ^ 64)%N -> B2R (norm_rank n n) = 1.
Proof.
  intros Hn. destruct (norm_rank_spec n n) as (_ & E & _); try lia. rewrite E. destruct (of_N_fin n) as (_ & En & _); [lia|].
  pose proof (of_N_ge1 n Hn) as G. rewrite En in G. unfold Rdiv. rewrite Rinv_r by lra. apply rnd_id. apply (fmt_IZR 1). lia.
Qed.
Lemma norm_rank_lt1 c n : (0 < n <= 2 ^ 53)%N -> (c < n)%N -> B2R (norm_rank c n) < 1.
Proof.
  intros Hn Hc. rewrite norm_rank_val by lia.
  assert (L : IZR (Z.of_N c) / IZR (Z.of_N n) <= 1 - bpow radix2 (-53)).
  { assert (Hp : 0 < IZR (Z.of_N n)) by (apply IZR_lt; lia). apply Rmult_le_reg_r with (IZR (Z.of_N n)); auto.
    unfold Rdiv. rewrite Rmult_assoc, Rinv_l, Rmult_1_r by lra. rewrite Rmult_minus_distr_r.
    assert (A : bpow radix2 (-53) * IZR (Z.of_N n) <= 1).
    { replace 1 with (bpow radix2 (-53) * bpow radix2 53). { apply Rmult_le_compat_l; [apply bpow_ge_0|]. rewrite <- (IZR_Zpower radix2 53) by lia. apply IZR_le. change (Zpower radix2 53) with (2 ^ 53)%Z. lia. }
      rewrite <- bpow_plus. reflexivity. }
    assert (B : IZR (Z.of_N c) <= IZR (Z.of_N n) - 1) by (rewrite <- minus_IZR; apply IZR_le; lia). lra. }
  assert (Ft : fmt (1 - bpow radix2 (-53))).
  { replace (1 - bpow radix2 (-53)) with (F2R (Float radix2 (2 ^ 53 - 1) (-53))).
    - apply generic_format_F2R. intros _. unfold cexp.
      apply Z.le_trans with (SpecFloat.fexp 53 1024 0); [|vm_compute; discriminate].
      apply FLT_exp_monotone. apply mag_le_bpow.
      + apply F2R_neq_0. discriminate.
      + rewrite Rabs_pos_eq. 2:{ apply F2R_ge_0. discriminate. } unfold F2R. cbn [Fnum Fexp].
        replace (bpow radix2 0) with (bpow radix2 53 * bpow radix2 (-53)) by (rewrite <- bpow_plus; reflexivity).
        apply Rmult_lt_compat_r; [apply bpow_gt_0|]. rewrite <- (IZR_Zpower radix2 53) by lia. apply IZR_lt. reflexivity.
    - unfold F2R. cbn [Fnum Fexp]. rewrite minus_IZR. change (IZR (2 ^ 53)) with (IZR (Zpower radix2 53)). rewrite (IZR_Zpower radix2 53) by lia. rewrite Rmult_minus_distr_r, <- bpow_plus, Rmult_1_l. reflexivity. }
  pose proof (rnd_le_gen _ _ Ft L). pose proof (bpow_gt_0 radix2 (-53)). lra.
Qed.

(** ** Natural ranks *)
Notation TF := (IZR (Z.of_N tail_factor)).
Lemma tf_val : TF = 10000000. Proof. reflexivity. Qed.

(** The product the natural rank is taken from, in the reals *)
Definition scaled (r : R) (n : N) : R :=
  let p := rnd (r * rnd (IZR (Z.of_N n))) in
  if (n <=? tail_factor)%N then rnd (IZR (ZnearestA (rnd (p * TF))) / TF) else p.

Lemma nearestA_le x z : x <= IZR z -> (ZnearestA x <= z)%Z.
Proof. intros H. apply Z.le_trans with (ZnearestA (IZR z)).
  - apply (@Zrnd_le ZnearestA _); auto.
  - rewrite Zrnd_IZR; [lia|typeclasses eauto].
Qed.
Lemma nearestA_ge x z : IZR z <= x -> (z <= ZnearestA x)%Z.
Proof.
  intros H. apply Z.le_trans with (ZnearestA (IZR z)).
  - rewrite Zrnd_IZR; [lia|typeclasses eauto].
  - apply (@Zrnd_le ZnearestA _); auto.
Qed.

Lemma scaled_mono r q n : r <= q -> (n < 2 ^ 64)%N -> scaled r n <= scaled q n.
Proof.
  intros H Hn. unfold scaled. assert (P : rnd (r * rnd (IZR (Z.of_N n))) <= rnd (q * rnd (IZR (Z.of_N n)))).
  { apply rnd_le. apply Rmult_le_compat_r; auto. apply rnd_nonneg. apply IZR_le. lia. }
  destruct (n <=? tail_factor)%N; auto. apply rnd_le. apply Rmult_le_compat_r. { left. apply Rinv_0_lt_compat. rewrite tf_val. lra. }
  apply IZR_le. apply (@Zrnd_le ZnearestA _). apply rnd_le. apply Rmult_le_compat_r; auto. rewrite tf_val. lra.
Qed.
Lemma scaled_range r n : 0 <= r <= 1 -> (0 < n < 2 ^ 64)%N -> 0 <= scaled r n <= rnd (IZR (Z.of_N n)).
Proof.
  intros H Hn. assert (G : 0 <= rnd (IZR (Z.of_N n))) by (apply rnd_nonneg; apply IZR_le; lia).
  assert (P : 0 <= rnd (r * rnd (IZR (Z.of_N n))) <= rnd (IZR (Z.of_N n))).
  { split; [apply rnd_nonneg; apply Rmult_le_pos; lra|]. apply rnd_le_gen; [apply generic_format_round; typeclasses eauto|].
    rewrite <- (Rmult_1_l (rnd (IZR _))) at 2. apply Rmult_le_compat_r; lra. }
  unfold scaled. destruct (N.leb_spec n tail_factor) as [L|L]; auto. unfold tail_factor in L.
  assert (E : rnd (IZR (Z.of_N n)) = IZR (Z.of_N n)) by (apply rnd_id; apply fmt_IZR; lia). rewrite E in *.
  assert (T : 0 < TF) by (rewrite tf_val; lra).
  split.
  - apply rnd_nonneg. apply Rmult_le_pos; [|left; apply Rinv_0_lt_compat; auto]. apply (IZR_le 0). apply nearestA_ge. apply rnd_nonneg. apply Rmult_le_pos; lra.
  - apply rnd_le_gen; [apply fmt_IZR; lia|]. apply Rmult_le_reg_r with TF; auto. unfold Rdiv. rewrite Rmult_assoc, Rinv_l, Rmult_1_r by lra.
    rewrite <- mult_IZR. apply IZR_le. apply nearestA_le. rewrite mult_IZR. 
    apply rnd_le_gen; [rewrite <- mult_IZR; apply fmt_IZR; unfold tail_factor; lia|]. apply Rmult_le_compat_r; lra.
Qed.

Definition up_or_down (inclusive : bool) (x : R) : Z := if inclusive then Zceil x else Zfloor x.
Lemma up_or_down_le i x y : x <= y -> (up_or_down i x <= up_or_down i y)%Z.
Proof. intros H. destruct i; [apply Zceil_le|apply Zfloor_le]; auto. Qed.
Lemma up_or_down_IZR i z : up_or_down i (IZR z) = z.
Proof. destruct i; [apply Zceil_IZR|apply Zfloor_IZR]. Qed.

Lemma natural_rank_spec (r : f64) n i : is_finite r = true -> 0 <= B2R r <= 1 -> (0 < n <= 2 ^ 62)%N ->
  natural_rank r n i = Ans (up_or_down i (scaled (B2R r) n)).
Proof.
  intros F H Hn. destruct (of_N_fin n) as (Fn & En & Bn); [lia|].
  assert (U : rnd (IZR (Z.of_N n)) <= bpow radix2 62).
  { apply rnd_le_gen; [apply fmt_bpow; lia|]. rewrite <- (IZR_Zpower radix2 62) by lia. apply IZR_le. change (Zpower radix2 62) with (2 ^ 62)%Z. lia. }
  rewrite En in Bn. pose proof (scaled_range (B2R r) n H ltac:(lia)) as SR.
  destruct (mul_spec r (f_of_Z (Z.of_N n)) 62) as (E1 & F1 & B1); auto; try lia.
  { rewrite En, Rabs_pos_eq by (apply Rmult_le_pos; lra). rewrite <- (Rmult_1_l (bpow radix2 62)). apply Rmult_le_compat; lra. }
  rewrite En in E1.
  assert (K : exists nr, (if (n <=? tail_factor)%N then fdiv (fround (fmul (fmul r (f_of_Z (Z.of_N n))) (f_of_Z (Z.of_N tail_factor)))) (f_of_Z (Z.of_N tail_factor))
      else fmul r (f_of_Z (Z.of_N n))) = nr /\ is_finite nr = true /\ B2R nr = scaled (B2R r) n).
  { unfold scaled. destruct (N.leb_spec n tail_factor) as [L|L].
    - unfold tail_factor in L. destruct (of_Z_val (Z.of_N tail_factor)) as (Et & Ft); [unfold tail_factor; lia|].
      assert (En' : rnd (IZR (Z.of_N n)) = IZR (Z.of_N n)) by (apply rnd_id; apply fmt_IZR; lia). rewrite En' in *.
      assert (P : 0 <= rnd (B2R r * IZR (Z.of_N n)) <= IZR (Z.of_N n)).
      { split; [apply rnd_nonneg; apply Rmult_le_pos; lra|]. apply rnd_le_gen; [apply fmt_IZR; lia|]. 
        rewrite <- (Rmult_1_l (IZR (Z.of_N n))) at 2. apply Rmult_le_compat_r; lra. }
      assert (Pn : IZR (Z.of_N n) <= 10000000) by (apply IZR_le; lia).
      assert (B47 : bpow radix2 47 = 140737488355328) by reflexivity.
      destruct (mul_spec (fmul r (f_of_Z (Z.of_N n))) (f_of_Z (Z.of_N tail_factor)) 47) as (E2 & F2 & B2); auto; try lia.
      { rewrite E1, Et, tf_val, B47, Rabs_pos_eq by (apply Rmult_le_pos; lra). nra. }
      rewrite E1, Et in E2. destruct (nearest_spec _ F2) as (E3 & F3).
      assert (M : 0 <= rnd (rnd (B2R r * IZR (Z.of_N n)) * TF) <= 140737488355328).
      { rewrite <- E2 in *. rewrite Rabs_pos_eq in B2; [rewrite B47 in B2; split; auto; rewrite E2; apply rnd_nonneg; apply Rmult_le_pos; rewrite ?tf_val; lra|].
        rewrite E2; apply rnd_nonneg; apply Rmult_le_pos; rewrite ?tf_val; lra. }
      rewrite E2 in E3. set (z := ZnearestA (rnd (rnd (B2R r * IZR (Z.of_N n)) * TF))) in *.
      assert (Z1 : (0 <= z <= 140737488355328)%Z) by (split; [apply nearestA_ge|apply nearestA_le]; lra).
      destruct (div_spec (fround (fmul (fmul r (f_of_Z (Z.of_N n))) (f_of_Z (Z.of_N tail_factor)))) (f_of_Z (Z.of_N tail_factor)) 47) as (E4 & F4 & _); auto; try lia.
      { rewrite Et, tf_val. lra. }
      { rewrite E3, Et, tf_val, B47. rewrite Rabs_pos_eq. 2:{ apply Rmult_le_pos; [apply (IZR_le 0); lia|lra]. }
        assert (IZR z <= 140737488355328) by (apply IZR_le; lia). lra. }
      eexists. split; [reflexivity|]. split; [exact F4|]. rewrite E4, E3, Et. reflexivity.
    - eexists. split; [reflexivity|]. split; [exact F1|exact E1]. }
  destruct K as (nr & K1 & K2 & K3). unfold natural_rank. rewrite K1. rewrite <- K3.
  assert (R62 : (0 <= up_or_down i (B2R nr) <= 2 ^ 62)%Z).
  { rewrite K3. split.
    - rewrite <- (up_or_down_IZR i 0). apply up_or_down_le. lra.
    - rewrite <- (up_or_down_IZR i (2 ^ 62)). apply up_or_down_le. change (2 ^ 62)%Z with (Zpower radix2 62). rewrite (IZR_Zpower radix2 62) by lia. lra. }
  destruct i; cbn [up_or_down] in *.
  - destruct (ceil_spec nr K2) as (A & B). apply to_int64_spec; auto. lia.
  - destruct (floor_spec nr K2) as (A & B). apply to_int64_spec; auto. lia.
Qed.

(** Up to ten million items the natural rank is recovered exactly from the normalised one. *)
Lemma rel_err_prod a e1 e2 : Rabs e1 <= bpow radix2 (-53) -> Rabs e2 <= bpow radix2 (-53) -> 0 <= a -> a * (1 + e1) * (1 + e2) <= a + a * bpow radix2 (-51) /\ a - a * bpow radix2 (-51) <= a * (1 + e1) * (1 + e2).
Proof.
  intros H1 H2 Ha. apply Rabs_le_inv in H1, H2. set (u := bpow radix2 (-53)) in *.
  assert (Eu : bpow radix2 (-51) = 4 * u) by (unfold u; change (-51)%Z with (2 + -53)%Z; rewrite bpow_plus; reflexivity). rewrite Eu.
  assert (Pu : 0 < u) by apply bpow_gt_0.
  assert (U1 : u <= 1 / 1000) by (unfold u; change (-53)%Z with (- (53))%Z; rewrite bpow_opp; apply Rle_trans with (/ 1000); [|lra]; apply Rinv_le; [lra|]; change (bpow radix2 53) with 9007199254740992; lra).
  assert (X : Rabs ((1 + e1) * (1 + e2) - 1) <= 4 * u).
  { apply Rabs_le. split; nra. }
  apply Rabs_le_inv in X. rewrite Rmult_assoc. set (w := (1 + e1) * (1 + e2)) in *. split; nra.
Qed.

Lemma scaled_of_norm c n : (0 < n <= tail_factor)%N -> (c <= n)%N -> scaled (B2R (norm_rank c n)) n = IZR (Z.of_N c).
Proof.
  intros Hn Hc. assert (Hn' := Hn). unfold tail_factor in Hn'. destruct (N.eq_dec c 0) as [->|Nc].
  - rewrite norm_rank_0 by lia. unfold scaled. rewrite Rmult_0_l, (rnd_id 0 fmt_0), Rmult_0_l, (rnd_id 0 fmt_0), Zrnd_IZR by typeclasses eauto.
    unfold Rdiv. rewrite Rmult_0_l, (rnd_id 0 fmt_0). destruct (_ <=? _)%N; reflexivity.
  - rewrite norm_rank_val by lia. unfold scaled. destruct (N.leb_spec n tail_factor) as [_|L]; [|lia].
    assert (En : rnd (IZR (Z.of_N n)) = IZR (Z.of_N n)) by (apply rnd_id; apply fmt_IZR; lia). rewrite En.
    set (C := IZR (Z.of_N c)) in *. set (M := IZR (Z.of_N n)) in *.
    assert (C1 : 1 <= C) by (apply IZR_le; lia). assert (M1 : C <= M) by (apply IZR_le; lia). assert (M2 : M <= 10000000) by (apply IZR_le; lia).
    assert (Tiny : forall e, (-40 <= e)%Z -> bpow radix2 (-1022) <= bpow radix2 e) by (intros; apply bpow_le; lia).
    assert (T40 : bpow radix2 (-40) <= / 10000000) .
    { change (-40)%Z with (- (40))%Z. rewrite bpow_opp. apply Rinv_le; [lra|]. change (bpow radix2 40) with 1099511627776. lra. }
    assert (Q : / 10000000 <= C / M).
    { apply Rle_trans with (/ M); [apply Rinv_le; lra|]. unfold Rdiv. rewrite <- (Rmult_1_l (/ M)) at 1. apply Rmult_le_compat_r; [|lra]. left. apply Rinv_0_lt_compat. lra. }
    destruct (rnd_rel (C / M)) as (e1 & A1 & R1). { rewrite Rabs_pos_eq by lra. eapply Rle_trans; [apply (Tiny (-40)%Z); lia|lra]. }
    assert (S1 : rnd (C / M) * M = C * (1 + e1)) by (rewrite R1; field; lra). rewrite S1.
    assert (U : bpow radix2 (-53) <= 1 / 1000).
    { change (-53)%Z with (- (53))%Z. rewrite bpow_opp. apply Rle_trans with (/ 1000); [|lra]. apply Rinv_le; [lra|]. change (bpow radix2 53) with 9007199254740992. lra. }
    assert (L1 : 1 / 2 <= C * (1 + e1)). { apply Rabs_le_inv in A1. nra. }
    destruct (rnd_rel (C * (1 + e1))) as (e2 & A2 & R2). { rewrite Rabs_pos_eq by lra. eapply Rle_trans; [apply (Tiny (-40)%Z); lia|lra]. }
    rewrite R2. destruct (rel_err_prod C e1 e2 A1 A2 ltac:(lra)) as (P1 & P2).
    set (p := C * (1 + e1) * (1 + e2)) in *. rewrite tf_val.
    assert (E51 : bpow radix2 (-51) = / 2251799813685248) by (change (-51)%Z with (- (51))%Z; rewrite bpow_opp; reflexivity). rewrite E51 in *.
    assert (P3 : Rabs (p * 10000000 - C * 10000000) <= 1 / 20) by (apply Rabs_le; split; nra).
    assert (P4 : Rabs (rnd (p * 10000000) - p * 10000000) <= 1 / 20).
    { eapply Rle_trans; [apply (rnd_abs_err _ 47); [lia|]|].
      - apply Rabs_le_inv in P3. rewrite Rabs_pos_eq by lra. change (bpow radix2 47) with 140737488355328. nra.
      - change (47 - 53)%Z with (- (6))%Z. rewrite bpow_opp. change (bpow radix2 6) with 64. lra. }
    assert (Zn : ZnearestA (rnd (p * 10000000)) = (Z.of_N c * 10000000)%Z).
    { apply Znearest_imp. rewrite mult_IZR. fold C. apply Rabs_le_inv in P3, P4. apply Rabs_lt. split; lra. }
    rewrite Zn, mult_IZR. fold C. unfold Rdiv. rewrite Rmult_assoc, Rinv_r, Rmult_1_r by lra. apply rnd_id. apply fmt_IZR. lia.
Qed.

Lemma natural_of_norm c n i : (0 < n <= tail_factor)%N -> (c <= n)%N -> natural_rank (norm_rank c n) n i = Ans (Z.of_N c).
Proof.
  intros Hn Hc. assert (Hn' := Hn). unfold tail_factor in Hn'. destruct (norm_rank_spec c n) as (F & _ & B); try lia.
  rewrite natural_rank_spec by (auto; lia). rewrite scaled_of_norm by auto. rewrite up_or_down_IZR. reflexivity.
Qed.

(** How far the product is from the exact one *)
Lemma scaled_err r n : 0 <= r <= 1 -> (0 < n <= 2 ^ 53)%N -> Rabs (scaled r n - r * IZR (Z.of_N n)) <= (if (n <=? 10000000)%N then / 10000000 else IZR (Z.of_N n) * bpow radix2 (-53)).
Proof.
  intros H Hn. unfold scaled. rewrite tf_val. assert (En : rnd (IZR (Z.of_N n)) = IZR (Z.of_N n)) by (apply rnd_id; apply fmt_IZR; lia). rewrite En.
  set (M := IZR (Z.of_N n)) in *. assert (M0 : 1 <= M) by (apply IZR_le; lia).
  assert (T0 : 0 <= r * M <= M). { split; [apply Rmult_le_pos; lra|]. rewrite <- (Rmult_1_l M) at 2. apply Rmult_le_compat_r; lra. }
  unfold tail_factor. destruct (N.leb_spec n 10000000) as [L|L].
  - assert (M2 : M <= 10000000) by (apply IZR_le; lia).
    assert (P1 : Rabs (rnd (r * M) - r * M) <= / 536870912).
    { eapply Rle_trans; [apply (rnd_abs_err _ 24); [lia|]|].
      - rewrite Rabs_pos_eq by lra. change (bpow radix2 24) with 16777216. lra.
      - change (24 - 53)%Z with (- (29))%Z. rewrite bpow_opp. change (bpow radix2 29) with 536870912. lra. }
    set (p := rnd (r * M)) in *. apply Rabs_le_inv in P1.
    assert (P0 : 0 <= p <= M). { unfold p. split; [apply rnd_nonneg; lra|]. apply rnd_le_gen; [apply fmt_IZR; lia|lra]. }
    assert (P2 : Rabs (rnd (p * 10000000) - p * 10000000) <= / 64).
    { eapply Rle_trans; [apply (rnd_abs_err _ 47); [lia|]|].
      - rewrite Rabs_pos_eq by lra. change (bpow radix2 47) with 140737488355328. lra.
      - change (47 - 53)%Z with (- (6))%Z. rewrite bpow_opp. change (bpow radix2 6) with 64. lra. }
    set (m := rnd (p * 10000000)) in *. apply Rabs_le_inv in P2. pose proof (Znearest_half (Z.leb 0) m) as P3. apply Rabs_le_inv in P3.
    set (z := IZR (ZnearestA m)) in *.
    assert (Q : Rabs (z / 10000000 - r * M) <= 6 / 100000000). { apply Rabs_le. unfold Rdiv. split; lra. }
    assert (P4 : Rabs (rnd (z / 10000000) - z / 10000000) <= / 536870912).
    { eapply Rle_trans; [apply (rnd_abs_err _ 24); [lia|]|].
      - apply Rabs_le_inv in Q. change (bpow radix2 24) with 16777216. apply Rabs_le. split; lra.
      - change (24 - 53)%Z with (- (29))%Z. rewrite bpow_opp. change (bpow radix2 29) with 536870912. lra. }
    apply Rabs_le_inv in P4. apply Rabs_le_inv in Q. apply Rabs_le. split; lra.
  - pose proof (bpow_gt_0 radix2 (-53)) as Pu.
    destruct (Rle_or_lt (bpow radix2 (-1022)) (r * M)) as [Big|Small].
    + destruct (rnd_rel (r * M)) as (e & A & R). { rewrite Rabs_pos_eq; lra. } rewrite R. replace (r * M * (1 + e) - r * M) with ((r * M) * e) by ring.
      rewrite Rabs_mult, (Rabs_pos_eq (r * M)) by lra. apply Rmult_le_compat; try lra. apply Rabs_pos.
    + eapply Rle_trans; [apply (rnd_abs_err _ 0); [lia|]|].
      * rewrite Rabs_pos_eq by lra. eapply Rle_trans; [left; exact Small|]. apply bpow_le. lia.
      * change (0 - 53)%Z with (-53)%Z. rewrite <- (Rmult_1_l (bpow radix2 (-53))) at 1. apply Rmult_le_compat_r; lra.
Qed.
