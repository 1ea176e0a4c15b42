(** * C81: CountMin's upper bounds and size suggestions, in binary64.

    [B2R] is the real number a finite float64 stands for. *)
From Coq Require Import ZArith Bool List Lia Psatz Reals.
From Flocq Require Import Core BinarySingleNaN Relative.
From Verif Require Import Base Bytes GoInt CountMinModel CountMinProps FloatModel FloatProofs RankModel RankProofs BloomSizeProps CountMinErrModel.
Import ListNotations.
Local Open Scope R_scope.

(** ** Specification *)
(** math.Exp(1) has a relative error of at most 2^-50, and so has math.Log from 1 to 2^53. *)
Definition e_near (e1 : f64) : Prop := is_finite e1 = true /\ Rabs (B2R e1 - exp 1) <= / 2 ^ 50 * exp 1.
Definition log_near1 (flog : f64 -> f64) : Prop := forall x, is_finite x = true -> 1 <= B2R x <= 2 ^ 53 ->
  is_finite (flog x) = true /\ Rabs (B2R (flog x) - ln (B2R x)) <= / 2 ^ 50 * ln (B2R x).
(** The error the sketch is made for: e / b of the total weight *)
Definition margin (l : life) : R := exp 1 / IZR (snd (fst (config l))) * IZR (gross (stream l)).

(** ** Proofs *)
Lemma e_range : 2 <= exp 1 <= 11 / 4.
Proof.
  pose proof (exp_ineq1_le 1). split; [lra|]. destruct (exp_neg 1 2 ltac:(lra)) as (A & _). cbn [Nat.mul Nat.add horner Z.add Pos.add Pos.succ] in A. rewrite exp_Ropp in A.
  apply Rmult_le_reg_r with (/ exp 1); [apply Rinv_0_lt_compat; lra|]. rewrite Rinv_r by lra. lra.
Qed.
Lemma e_factor e1 : e_near e1 -> exists u, near (/ 2 ^ 50) u /\ B2R e1 = exp 1 * u /\ 1 <= B2R e1 <= 4.
Proof.
  intros (F & H). pose proof e_range as R. apply Rabs_le_inv in H. assert (S : 0 < / 2 ^ 50 <= / 16) by (cbn [pow]; lra). set (x := B2R e1) in *. set (e := exp 1) in *. exists (x / e).
  assert (Q : x / e * e = x) by (field; lra). split; [unfold near; split; apply Rmult_le_reg_r with e; nra|]. split; [field; lra|nra].
Qed.
Lemma to_sint_spec w (x : f64) z : is_finite x = true -> B2R x = IZR z -> (- 2 ^ (w - 1) <= z < 2 ^ (w - 1))%Z -> to_sint w x = Ans z.
Proof.
  intros F E H. unfold to_sint. rewrite F. pose proof (Btrunc_correct 53 1024 _ x) as T. rewrite round_int, E, Ztrunc_IZR in T.
  apply eq_IZR in T. rewrite T. destruct (Z.leb_spec (- 2 ^ (w - 1)) z); [|lia]. destruct (Z.ltb_spec z (2 ^ (w - 1))); [reflexivity|lia].
Qed.
Lemma trunc_int64 (x : f64) : is_finite x = true -> 0 <= B2R x < 2 ^ 63 -> exists d, to_int64 x = Ans d /\ (0 <= d < 2 ^ 63)%Z /\ IZR d <= B2R x < IZR d + 1.
Proof.
  intros F H. unfold to_int64. rewrite F. pose proof (Btrunc_correct 53 1024 _ x) as T. rewrite round_int in T. apply eq_IZR in T. rewrite Ztrunc_floor in T by lra.
  pose proof (Zfloor_lb (B2R x)) as A. pose proof (Zfloor_ub (B2R x)) as B. assert (Z0 : (0 <= Zfloor (B2R x))%Z) by (apply Zfloor_lub; lra).
  assert (Z1 : (Zfloor (B2R x) < 2 ^ 63)%Z). { apply lt_IZR. replace (IZR (2 ^ 63)) with (2 ^ 63) by (cbn [pow]; change (2 ^ 63)%Z with 9223372036854775808%Z; lra). lra. }
  exists (Zfloor (B2R x)). rewrite T. destruct (Z.leb_spec (- 2 ^ 63) (Zfloor (B2R x))); [|lia]. destruct (Z.ltb_spec (Zfloor (B2R x)) (2 ^ 63)); [|lia]. cbn [andb]. auto.
Qed.
Lemma ofZ_factor z : (1 <= z < 2 ^ 64)%Z -> is_finite (f_of_Z z) = true /\ 1 <= B2R (f_of_Z z) <= 2 ^ 64 /\ exists u, near (/ 2 ^ 53) u /\ B2R (f_of_Z z) = IZR z * u.
Proof.
  intros H. destruct (valN_factor (Z.to_N z)) as (F & B & u & N & E); [lia|]. unfold valN in E. rewrite Z2N.id in * by lia. destruct bpow_num as (B64 & _). rewrite B64 in B. eauto.
Qed.
(** e / b in float64 *)
Lemma rel_q e1 b : e_near e1 -> (1 <= b < 2 ^ 31)%Z -> is_finite (relative_error e1 b) = true /\ / 2 ^ 33 <= B2R (relative_error e1 b) <= 8 /\ exists u, near (/ 2 ^ 50 + / 2 ^ 51) u /\ B2R (relative_error e1 b) = exp 1 / IZR b * u.
Proof.
  intros HE HB. destruct (e_factor e1 HE) as (u1 & N1 & E1 & R1). destruct (of_Z_val b) as (Eb & Fb); [lia|]. assert (B1 : 1 <= IZR b <= 2 ^ 31). { split; [apply (IZR_le 1); lia|]. replace (2 ^ 31) with (IZR (2 ^ 31)) by (cbn [pow]; change (2 ^ 31)%Z with 2147483648%Z; lra). apply IZR_le. lia. }
  assert (S50 : 0 < / 2 ^ 50 <= / 16) by (cbn [pow]; lra). assert (S53 : 0 < / 2 ^ 53 <= / 16) by (cbn [pow]; lra). assert (S31 : 0 < / 2 ^ 31) by (cbn [pow]; lra).
  assert (I : / 2 ^ 31 <= / IZR b <= 1) by (split; [apply Rinv_le; lra|rewrite <- Rinv_1; apply Rinv_le; lra]).
  assert (Q : / 2 ^ 31 <= B2R e1 / IZR b <= 4). { unfold Rdiv. split; [replace (/ 2 ^ 31) with (1 * / 2 ^ 31) by lra; apply Rmult_le_compat; lra|replace 4 with (4 * 1) by lra; apply Rmult_le_compat; lra]. }
  destruct (div_spec e1 (f_of_Z b) 2) as (Ed & Fd & _); [lia|apply HE|rewrite Eb; lra|rewrite Eb, Rabs_pos_eq by lra; change (bpow radix2 2) with 4; lra|]. rewrite Eb in Ed.
  destruct (near_rnd (B2R e1 / IZR b)) as (u2 & N2 & E2); [apply (small_bpow (-31)); [lia|replace (bpow radix2 (-31)) with (/ 2 ^ 31) by (cbn; lra); lra]|].
  unfold relative_error. split; auto. rewrite Ed, E2. assert (V2 : / 2 <= u2 <= 2) by (unfold near in N2; lra). split.
  { replace (/ 2 ^ 33) with (/ 2 ^ 31 * / 4) by (cbn [pow]; lra). split; [apply Rmult_le_compat; lra|]. replace 8 with (4 * 2) by lra. apply Rmult_le_compat; lra. }
  exists (u1 * u2). split.
  - assert (H := near_mul (/ 2 ^ 50) (/ 2 ^ 53) u1 u2 ltac:(lra) ltac:(lra) N1 N2). eapply near_weak; [|exact H]. cbn [pow]. lra.
  - rewrite E1. field. lra.
Qed.
Lemma margin_q e1 b w : e_near e1 -> (3 <= b < 2 ^ 31)%Z -> (0 <= w < 2 ^ 62)%Z ->
  let q := fmul (relative_error e1 b) (f_of_Z w) in is_finite q = true /\ exists u, near (/ 2 ^ 49) u /\ B2R q = exp 1 / IZR b * IZR w * u.
Proof.
  intros HE HB HW q. destruct (rel_q e1 b HE ltac:(lia)) as (Fr & Rr & u1 & N1 & E1). destruct (Z.eq_dec w 0) as [->|Hw].
  - destruct (mul_spec (relative_error e1 b) (f_of_Z 0) 1) as (Em & Fm & _); [lia|auto|reflexivity|change (B2R (f_of_Z 0)) with 0; rewrite Rmult_0_r, Rabs_R0; apply bpow_ge_0|]. split; auto. exists 1. split; [unfold near; assert (0 < / 2 ^ 49) by (cbn [pow]; lra); lra|].
    unfold q. rewrite Em. change (B2R (f_of_Z 0)) with 0. rewrite Rmult_0_r, (rnd_id 0 fmt_0). ring.
  - destruct (ofZ_factor w) as (Fw & Rw & u2 & N2 & E2); [lia|]. assert (S33 : 0 < / 2 ^ 33) by (cbn [pow]; lra).
    assert (P : / 2 ^ 33 <= B2R (relative_error e1 b) * B2R (f_of_Z w) <= 8 * 2 ^ 64) by (split; [replace (/ 2 ^ 33) with (/ 2 ^ 33 * 1) by lra; apply Rmult_le_compat; lra|apply Rmult_le_compat; lra]).
    destruct (mul_spec (relative_error e1 b) (f_of_Z w) 70) as (Em & Fm & _); auto; [lia|rewrite Rabs_pos_eq by lra; replace (bpow radix2 70) with (2 ^ 70) by (cbn; lra); assert (8 * 2 ^ 64 <= 2 ^ 70) by (cbn [pow]; lra); lra|].
    destruct (near_rnd (B2R (relative_error e1 b) * B2R (f_of_Z w))) as (u3 & N3 & E3); [apply (small_bpow (-33)); [lia|replace (bpow radix2 (-33)) with (/ 2 ^ 33) by (cbn; lra); lra]|].
    split; auto. exists (u1 * u2 * u3). split.
    + assert (H := near_mul (/ 2 ^ 50 + / 2 ^ 51) (/ 2 ^ 53) u1 u2 ltac:(cbn [pow]; lra) ltac:(cbn [pow]; lra) N1 N2). apply (near_weak _ (/ 2 ^ 50 + / 2 ^ 51 + / 2 ^ 53 + / 2 ^ 60)) in H; [|cbn [pow]; lra].
      assert (H2 := near_mul (/ 2 ^ 50 + / 2 ^ 51 + / 2 ^ 53 + / 2 ^ 60) (/ 2 ^ 53) (u1 * u2) u3 ltac:(cbn [pow]; lra) ltac:(cbn [pow]; lra) H N3). eapply near_weak; [|exact H2]. cbn [pow]. lra.
    + unfold q. rewrite Em, E3, E1, E2. ring.
Qed.

(** ** Theorems *)
(** GetUpperBound lies above the estimate, hence above the true weight of the item, by e / b of the total weight, rounded down. *)
Theorem countmin_upper_bound e1 hash rng seedHash l x : e_near e1 -> valid seedHash l -> x <> [] -> nonneg (stream l) -> (gross (stream l) < 2 ^ 62)%Z ->
  exists c e u, run hash rng seedHash l = Some c /\ cm_estimate hash c x = Some e /\ upper_bound e1 hash c x = Ans u /\
    (frequency (stream l) x <= e <= u)%Z /\ (1 - / 2 ^ 49) * margin l - 1 <= IZR (u - e) <= (1 + / 2 ^ 49) * margin l.
Proof.
  intros HE V Hx NN HG. destruct (countmin_never_underestimates hash rng seedHash l x V Hx NN ltac:(lia)) as (c & e & Er & Ee & Hf & Ht & _). pose proof (countmin_state_is_function_of_stream hash rng seedHash l V) as Ei.
  destruct (config_ok seedHash l V) as (h & b & s & Ec & Hh & Hb & Hs). assert (Eb : cm_buckets c = b) by (rewrite Er in Ei; injection Ei as ->; rewrite Ec; reflexivity).
  assert (HB : (3 <= b < 2 ^ 31)%Z) by nia. assert (F0 : (0 <= frequency (stream l) x)%Z).
  { unfold frequency, weight_if. clear - NN. induction (stream l) as [|[y w] r IH]; simpl; [lia|]. assert (0 <= w)%Z by (apply (NN (y, w)); left; auto). assert (nonneg r) by (intros z Hz; apply NN; right; auto). specialize (IH H0). destruct (list_N_eqb x y); lia. }
  assert (G0 : (0 <= gross (stream l))%Z) by lia.
  destruct (margin_q e1 b (gross (stream l)) HE HB ltac:(lia)) as (Fq & u & Nu & Eq). assert (EM : exp 1 / IZR b * IZR (gross (stream l)) = margin l) by (unfold margin; rewrite Ec; reflexivity). rewrite EM in Eq. unfold near in Nu. set (q := fmul _ _) in *.
  pose proof e_range as R. assert (B3 : 3 <= IZR b) by (apply (IZR_le 3); lia). assert (GR : 0 <= IZR (gross (stream l)) <= 2 ^ 62 - 1). { split; [apply (IZR_le 0); lia|]. replace (2 ^ 62 - 1) with (IZR (2 ^ 62 - 1)) by (cbn [pow]; change (2 ^ 62 - 1)%Z with 4611686018427387903%Z; lra). apply IZR_le. lia. }
  assert (M : 0 <= margin l <= 11 / 12 * 2 ^ 62). { rewrite <- EM. assert (I : 0 < / IZR b <= / 3) by (split; [apply Rinv_0_lt_compat; lra|apply Rinv_le; lra]). assert (Q : 0 <= exp 1 / IZR b <= 11 / 12) by (unfold Rdiv; split; [nra|apply Rle_trans with (11 / 4 * / 3); [apply Rmult_le_compat; lra|lra]]). split; [apply Rmult_le_pos; lra|]. apply Rmult_le_compat; lra. }
  assert (S : 0 < / 2 ^ 49 <= / 1024) by (cbn [pow]; lra). assert (BQ : (1 - / 2 ^ 49) * margin l <= B2R q <= (1 + / 2 ^ 49) * margin l) by (rewrite Eq; split; nra).
  destruct (trunc_int64 q Fq) as (d & Ed & Hd & Rd). { split; [nra|]. assert ((1 + / 2 ^ 49) * margin l <= (1 + / 1024) * (11 / 12 * 2 ^ 62)) by (apply Rmult_le_compat; lra). assert ((1 + / 1024) * (11 / 12 * 2 ^ 62) < 2 ^ 63) by (cbn [pow]; lra). lra. }
  assert (D2 : (d <= 2 ^ 62)%Z). { apply le_IZR. replace (IZR (2 ^ 62)) with (2 ^ 62) by (cbn [pow]; change (2 ^ 62)%Z with 4611686018427387904%Z; lra). assert ((1 + / 2 ^ 49) * margin l <= (1 + / 1024) * (11 / 12 * 2 ^ 62)) by (apply Rmult_le_compat; lra). assert ((1 + / 1024) * (11 / 12 * 2 ^ 62) <= 2 ^ 62) by (cbn [pow]; lra). lra. }
  exists c, e, (e + d)%Z. split; auto. split; auto. split; [|split; [lia|]].
  - unfold upper_bound. rewrite Ee, Eb, Ht. change (fmul (relative_error e1 b) (f_of_Z (gross (stream l)))) with q. rewrite Ed. cbn [bind_a]. rewrite wrap64_id; auto. unfold int64. lia.
  - replace (e + d - e)%Z with d by ring. lra.
Qed.
(** GetUpperBoundUint64 is the same for the eight bytes of the number, least significant first. *)
Theorem countmin_upper_bound_uint64 e1 hash rng seedHash l v : e_near e1 -> valid seedHash l -> nonneg (stream l) -> (gross (stream l) < 2 ^ 62)%Z ->
  exists c e u, run hash rng seedHash l = Some c /\ cm_estimate hash c (le 8 v) = Some e /\ upper_bound_u64 e1 hash c v = Ans u /\
    (frequency (stream l) (le 8 v) <= e <= u)%Z /\ (1 - / 2 ^ 49) * margin l - 1 <= IZR (u - e) <= (1 + / 2 ^ 49) * margin l.
Proof. intros HE V NN HG. apply (countmin_upper_bound e1 hash rng seedHash l (le 8 v)); auto. discriminate. Qed.
(** Beyond 2^62 the sum can wrap: with a weight of 2^63 - 1 in three buckets, the upper bound of the one item is negative. *)
Definition f_e : f64 := f_lit 6121026514868073 (-51).
Theorem countmin_upper_bound_wraps_refuted : exists c u, run (fun _ _ => 0%Z) (fun _ _ => 0%Z) (fun _ => Some 1%N) (Update (New 1 3 7) [1%N] (2 ^ 63 - 1)) = Some c /\
  upper_bound f_e (fun _ _ => 0%Z) c [1%N] = Ans u /\ (u < 0)%Z.
Proof. do 2 eexists. split; [vm_compute; reflexivity|]. split; [vm_compute; reflexivity|]. reflexivity. Qed.

Lemma ceil_sint w (q : f64) lo hi : is_finite q = true -> lo <= B2R q <= hi -> 0 <= lo -> hi <= IZR (2 ^ (w - 1)) - 2 -> exists m, to_sint w (fceil q) = Ans m /\ (0 <= m < 2 ^ (w - 1))%Z /\ B2R q <= IZR m < B2R q + 1.
Proof.
  intros F H L U. destruct (ceil_spec q F) as (E & Fc). pose proof (ceil_bounds (B2R q)) as B.
  assert (Z1 : (-1 < Zceil (B2R q))%Z) by (apply lt_IZR; lra). assert (Z2 : (Zceil (B2R q) < 2 ^ (w - 1))%Z) by (apply lt_IZR; lra).
  exists (Zceil (B2R q)). split; [apply to_sint_spec; auto; lia|]. split; [lia|exact B].
Qed.
(** SuggestNumBuckets: e / r rounded up, up to rounding errors; a sketch with that many buckets has a relative error of at most r. *)
Theorem countmin_suggested_buckets e1 r : e_near e1 -> is_finite r = true -> 0 < B2R r -> exp 1 / B2R r <= 2 ^ 31 - 4 ->
  exists b, suggest_buckets e1 r = Ans b /\ (1 <= b < 2 ^ 31)%Z /\ (1 - / 2 ^ 49) * (exp 1 / B2R r) <= IZR b <= (1 + / 2 ^ 49) * (exp 1 / B2R r) + 1 /\
    B2R (relative_error e1 b) <= (1 + / 2 ^ 48) * B2R r.
Proof.
  intros HE Fr R0 HX. destruct (e_factor e1 HE) as (u1 & N1 & E1 & R1). pose proof e_range as RE. assert (S50 : 0 < / 2 ^ 50 <= / 2 ^ 40) by (cbn [pow]; lra). assert (S53 : 0 < / 2 ^ 53 <= / 2 ^ 43) by (cbn [pow]; lra). assert (S40 : / 2 ^ 40 <= / 1048576) by (cbn [pow]; lra).
  assert (S49 : / 2 ^ 49 = 2 * / 2 ^ 50) by (cbn [pow]; lra). assert (S51 : / 2 ^ 51 = / 2 * / 2 ^ 50) by (cbn [pow]; lra). assert (S48 : / 2 ^ 48 = 4 * / 2 ^ 50) by (cbn [pow]; lra).
  assert (A1 : fle r f_zero = false) by (destruct (fle r f_zero) eqn:C; auto; apply fle_spec in C; auto; change (B2R f_zero) with 0 in C; lra). unfold suggest_buckets. rewrite A1.
  set (y := B2R r) in *. set (x := exp 1 / y) in *. assert (X0 : 0 < x) by (apply Rmult_lt_0_compat; [lra|apply Rinv_0_lt_compat; auto]). assert (XY : x * y = exp 1) by (unfold x; field; lra). assert (Ex : B2R e1 / y = x * u1) by (rewrite E1; unfold x; field; lra).
  unfold near in N1. assert (XU : 0 < x * u1 <= 2 ^ 31) by (assert ((2 ^ 31 - 4) * (1 + / 1048576 * / 1048576) <= 2 ^ 31) by (cbn [pow]; lra); assert (/ 2 ^ 50 <= / 1048576 * / 1048576) by (cbn [pow]; lra); split; nra).
  destruct (div_spec e1 r 31) as (Ed & Fd & _); [lia|apply HE|fold y; lra|fold y; rewrite Ex, Rabs_pos_eq by lra; replace (bpow radix2 31) with (2 ^ 31) by (cbn; lra); lra|]. fold y in Ed. rewrite Ex in Ed. set (q := fdiv e1 r) in *.
  assert (T : exists b, to_sint 32 (fceil q) = Ans b /\ (1 <= b < 2 ^ 31)%Z /\ (1 - / 2 ^ 49) * x <= IZR b <= (1 + / 2 ^ 49) * x + 1 /\ ((1 - / 2 ^ 50 - / 2 ^ 51) * x <= IZR b)).
  { destruct (Rle_or_lt (bpow radix2 (-1022)) (x * u1)) as [Hn|Hs].
    - destruct (near_rnd (x * u1)) as (u2 & N2 & E2); [rewrite Rabs_pos_eq by lra; auto|]. rewrite E2 in Ed. assert (H := near_mul (/ 2 ^ 50) (/ 2 ^ 53) u1 u2 ltac:(lra) ltac:(lra) N1 N2). apply (near_weak _ (/ 2 ^ 50 + / 2 ^ 51)) in H; [|cbn [pow]; lra]. unfold near in H.
      rewrite Rmult_assoc in Ed. set (u := u1 * u2) in *. assert (BQ : (1 - / 2 ^ 50 - / 2 ^ 51) * x <= B2R q <= (1 + / 2 ^ 50 + / 2 ^ 51) * x) by (rewrite Ed; split; nra).
      assert (Q0 : 0 < B2R q <= 2 ^ 31 - 3). { split; [nra|]. assert ((1 + / 2 ^ 50 + / 2 ^ 51) * x <= (1 + / 2 ^ 50 + / 2 ^ 51) * (2 ^ 31 - 4)) by (apply Rmult_le_compat_l; lra). assert ((1 + / 2 ^ 50 + / 2 ^ 51) * (2 ^ 31 - 4) <= 2 ^ 31 - 3) by (cbn [pow]; lra). lra. }
      destruct (ceil_sint 32 q (B2R q) (2 ^ 31 - 3) Fd ltac:(lra) ltac:(lra)) as (b & Eb & Hb & Rb). { change (2 ^ (32 - 1))%Z with 2147483648%Z. cbn [pow]. lra. }
      exists b. split; auto. split; [split; [|apply Hb]|split; [split; nra|lra]]. assert (0 < b)%Z by (apply lt_IZR; lra). lia.
    - assert (Q1 : rnd (x * u1) <= bpow radix2 (-1022)) by (apply rnd_le_gen; [apply fmt_bpow; lia|lra]). assert (Q2 : 0 < B2R q).
      { rewrite Ed. apply Rlt_le_trans with (bpow radix2 (-1074)); [apply bpow_gt_0|]. apply rnd_ge; [apply fmt_bpow; lia|]. assert (YB : y < bpow radix2 1024) by (pose proof (abs_B2R_lt_emax 53 1024 r) as A; fold y in A; rewrite Rabs_pos_eq in A by lra; exact A).
        rewrite <- Ex. assert (I : bpow radix2 (-1024) <= / y) by (change (-1024)%Z with (- (1024))%Z; rewrite bpow_opp; left; apply Rinv_lt; auto). pose proof (bpow_le radix2 (-1074) (-1024) ltac:(lia)). unfold Rdiv. assert (0 < / y) by (apply Rinv_0_lt_compat; auto). nra. }
      assert (Q3 : bpow radix2 (-1022) <= / 4) by (change (/ 4) with (bpow radix2 (-2)); apply bpow_le; lia). rewrite <- Ed in Q1.
      destruct (ceil_sint 32 q (B2R q) (/ 4) Fd ltac:(lra) ltac:(lra)) as (b & Eb & Hb & Rb). { change (2 ^ (32 - 1))%Z with 2147483648%Z. lra. }
      assert (B1 : (b = 1)%Z) by (assert (0 < b)%Z by (apply lt_IZR; lra); assert (b < 2)%Z by (apply lt_IZR; lra); lia). subst b. assert (X1 : x <= / 2) by nra. exists 1%Z. split; auto. split; [lia|]. change (IZR 1) with 1. split; [split; nra|nra]. }
  destruct T as (b & Eb & Hb & Rb & Lb). exists b. split; auto. split; auto. split; auto.
  destruct (rel_q e1 b HE Hb) as (_ & _ & u & Nu & Er). rewrite Er. unfold near in Nu. assert (B1 : 1 <= IZR b) by (apply (IZR_le 1); lia). rewrite <- XY. rewrite S51, ?S48 in *. set (t := / 2 ^ 50) in *. assert (T0 : 0 < t <= / 1048576) by lra. clearbody t.
  assert (XB : x / IZR b <= / (1 - t - / 2 * t)). { apply Rmult_le_reg_r with (IZR b * (1 - t - / 2 * t)); [nra|]. replace (x / IZR b * (IZR b * (1 - t - / 2 * t))) with ((1 - t - / 2 * t) * x) by (field; lra). replace (/ (1 - t - / 2 * t) * (IZR b * (1 - t - / 2 * t))) with (IZR b) by (field; lra). lra. }
  assert (XC : / (1 - t - / 2 * t) * (1 + t + / 2 * t) <= 1 + 4 * t). { apply Rmult_le_reg_l with (1 - t - / 2 * t); [lra|]. rewrite <- Rmult_assoc, Rinv_r by lra. nra. }
  assert (XB0 : 0 <= x / IZR b) by (apply Rmult_le_pos; [lra|left; apply Rinv_0_lt_compat; lra]).
  replace (x * y / IZR b * u) with (y * (x / IZR b * u)) by (field; lra). rewrite (Rmult_comm _ y). apply Rmult_le_compat_l; [lra|]. eapply Rle_trans; [|exact XC]. apply Rmult_le_compat; lra.
Qed.
(** SuggestNumHashes: ln (1 / (1 - c)) rounded up, up to rounding errors; so that many rows fail together with probability at most 1 - c. *)
Theorem countmin_suggested_rows flog c : log_near1 flog -> is_finite c = true -> 0 <= B2R c < 1 ->
  exists k, suggest_rows flog c = Ans k /\ (0 <= k <= 54)%Z /\ ln (/ (1 - B2R c)) - / 2 ^ 44 <= IZR k <= ln (/ (1 - B2R c)) + / 2 ^ 44 + 1 /\
    exp (- IZR k) <= (1 - B2R c) * (1 + / 2 ^ 43).
Proof.
  intros HL Fc HC. destruct zero_val as (Z1 & Z2), one_val as (O1 & O2).
  assert (A1 : flt c f_zero = false) by (destruct (flt c f_zero) eqn:C; auto; apply flt_spec in C; auto; lra). assert (A2 : flt f_one c = false) by (destruct (flt f_one c) eqn:C; auto; apply flt_spec in C; auto; lra). unfold suggest_rows. rewrite A1, A2. cbn [orb].
  destruct bpow_num as (_ & B53). assert (S53 : 0 < / 2 ^ 53 <= / 2 ^ 43) by (cbn [pow]; lra). assert (S43 : / 2 ^ 43 <= / 1048576) by (cbn [pow]; lra).
  assert (G : / 2 ^ 53 <= 1 - B2R c <= 1).
  { split; [|lra]. rewrite <- B53. assert (G : B2R c <= 1 - bpow radix2 (-53)); [|lra]. destruct HC as (_ & P1). change 1 with (bpow radix2 0) in P1 |- *. replace (bpow radix2 0 - bpow radix2 (-53)) with (pred radix2 (SpecFloat.fexp 53 1024) (bpow radix2 0)) by (rewrite pred_bpow; reflexivity).
    apply pred_ge_gt; auto; try typeclasses eauto; [apply fmt_B|apply fmt_bpow; lia]. }
  set (d := 1 - B2R c) in *. destruct (sub_spec f_one c 0) as (Es & Fs & _); auto; [lia|rewrite O1; fold d; rewrite Rabs_pos_eq by lra; change (bpow radix2 0) with 1; lra|]. rewrite O1 in Es. fold d in Es.
  destruct (near_rnd d) as (u1 & N1 & E1); [apply (small_bpow (-53)); [lia|rewrite B53; lra]|]. set (x := fsub f_one c) in *.
  assert (X : / 2 ^ 53 <= B2R x <= 1). { rewrite Es. split; [apply rnd_ge; [rewrite <- B53; apply fmt_bpow; lia|lra]|apply rnd_le_gen; [apply (fmt_IZR 1); lia|lra]]. }
  assert (I : 1 <= 1 / B2R x <= 2 ^ 53). { unfold Rdiv. rewrite Rmult_1_l. split; [rewrite <- Rinv_1 at 1; apply Rinv_le; lra|replace (2 ^ 53) with (/ / 2 ^ 53) by (cbn [pow]; lra); apply Rinv_le; lra]. }
  destruct (div_spec f_one x 53) as (Ed & Fd & _); auto; [lia|lra|rewrite O1, Rabs_pos_eq by lra; replace (bpow radix2 53) with (2 ^ 53) by (cbn; lra); lra|]. rewrite O1 in Ed.
  destruct (near_rnd (1 / B2R x)) as (u2 & N2 & E2); [apply (small_bpow 0); [lia|change (bpow radix2 0) with 1; lra]|]. set (y := fdiv f_one x) in *.
  assert (Y : 1 <= B2R y <= 2 ^ 53). { rewrite Ed. split; [apply rnd_ge; [apply (fmt_IZR 1); lia|lra]|apply rnd_le_gen; [replace (2 ^ 53) with (bpow radix2 53) by (cbn; lra); apply fmt_bpow; lia|lra]]. }
  assert (EY : B2R y = / d * (u2 * / u1)). { rewrite Ed, E2, Es, E1. assert (u1 <> 0) by (unfold near in N1; lra). field. split; lra. }
  assert (NU : near (/ 2 ^ 51) (u2 * / u1)). { assert (H4 := near_inv (/ 2 ^ 53) u1 ltac:(lra) N1). apply (near_weak _ (/ 2 ^ 53 + / 2 ^ 60)) in H4; [|cbn [pow]; lra]. assert (H := near_mul (/ 2 ^ 53) (/ 2 ^ 53 + / 2 ^ 60) u2 (/ u1) ltac:(lra) ltac:(cbn [pow]; lra) N2 H4). eapply near_weak; [|exact H]. cbn [pow]. lra. }
  set (u := u2 * / u1) in *. unfold near in NU. assert (S51 : 0 < / 2 ^ 51 <= / 1048576) by (cbn [pow]; lra). assert (U0 : 0 < u) by lra. assert (D0 : 0 < / d) by (apply Rinv_0_lt_compat; lra).
  assert (LY : ln (B2R y) = ln (/ d) + ln u) by (rewrite EY; apply ln_mult; auto).
  assert (LU : - (2 * / 2 ^ 51) <= ln u <= / 2 ^ 51).
  { pose proof (exp_ineq1_le (ln u)) as Q1. rewrite exp_ln in Q1 by auto. pose proof (exp_ineq1_le (- ln u)) as Q2. rewrite exp_Ropp, exp_ln in Q2 by auto. assert (Iu : / u <= 1 + 2 * / 2 ^ 51) by (apply Rmult_le_reg_r with u; auto; rewrite Rinv_l by lra; nra). lra. }
  assert (LB : 0 <= ln (B2R y) <= 53).
  { split; [rewrite <- ln_1; destruct (proj1 Y) as [Q|Q]; [left; apply ln_increasing; lra|rewrite <- Q; lra]|]. apply Rle_trans with (ln (bpow radix2 53)); [replace (bpow radix2 53) with (2 ^ 53) by (cbn; lra); destruct (proj2 Y) as [Q|Q]; [left; apply ln_increasing; lra|rewrite Q; lra]|].
    rewrite bpow_exp, ln_exp. change (IZR radix2) with 2. pose proof ln2_range. lra. }
  destruct (HL y Fd Y) as (Fl & El). set (g := flog y) in *. assert (S50 : 0 < / 2 ^ 50) by (cbn [pow]; lra). apply Rabs_le_inv in El. assert (BG : ln (B2R y) - 53 * / 2 ^ 50 <= B2R g <= ln (B2R y) + 53 * / 2 ^ 50) by nra. assert (G0 : 0 <= B2R g) by (assert (/ 2 ^ 50 <= 1) by (cbn [pow]; lra); nra).
  assert (SS : 53 * / 2 ^ 50 + 2 * / 2 ^ 51 <= / 2 ^ 44) by (cbn [pow]; lra). assert (S44 : 0 < / 2 ^ 44 <= / 4) by (cbn [pow]; lra).
  destruct (ceil_sint 8 g (B2R g) (B2R g) Fl ltac:(lra) G0) as (k & Ek & Hk & Rk). { change (2 ^ (8 - 1))%Z with 128%Z. lra. }
  assert (K54 : (k <= 54)%Z) by (assert (k < 55)%Z by (apply lt_IZR; lra); lia). exists k. rewrite Ek. cbn [bind_a]. split; [f_equal; lia|]. split; [lia|]. assert (KB : ln (/ d) - / 2 ^ 44 <= IZR k <= ln (/ d) + / 2 ^ 44 + 1) by lra. split; auto.
  rewrite ln_Rinv in KB by lra. apply Rle_trans with (exp (ln d + / 2 ^ 44)); [destruct (Rle_lt_or_eq_dec (- IZR k) (ln d + / 2 ^ 44)) as [Q|Q]; [lra|left; apply exp_increasing; auto|rewrite Q; lra]|].
  rewrite exp_plus, exp_ln by lra. apply Rmult_le_compat_l; [lra|]. pose proof (exp_ineq1_le (- / 2 ^ 44)) as Q. rewrite exp_Ropp in Q. assert (E43 : / 2 ^ 43 = 2 * / 2 ^ 44) by (cbn [pow]; lra). rewrite E43. set (t := / 2 ^ 44) in *. clearbody t. pose proof (exp_pos t) as P. assert (T1 : (1 - t) * exp t <= 1) by (apply Rmult_le_reg_r with (/ exp t); [apply Rinv_0_lt_compat; auto|]; rewrite Rmult_assoc, Rinv_r by lra; lra). nra.
Qed.
(** They refuse what their messages say. *)
Theorem countmin_suggestions_refuse e1 flog x : (fle x f_zero = true -> suggest_buckets e1 x = Refused) /\ (flt x f_zero = true \/ flt f_one x = true -> suggest_rows flog x = Refused).
Proof. split; [intros H; unfold suggest_buckets; rewrite H; reflexivity|]. intros [H|H]; unfold suggest_rows; rewrite H, ?orb_true_r; reflexivity. Qed.
(** Full confidence is within the documented range, but the infinite logarithm is converted before it is capped at 127. *)
Theorem countmin_full_confidence_refuted flog : flog f_pinf = f_pinf -> suggest_rows flog f_one = Unspecified.
Proof. intros E. unfold suggest_rows. change (flt f_one f_zero || flt f_one f_one) with false. change (fdiv f_one (fsub f_one f_one)) with f_pinf. cbv iota. rewrite E. reflexivity. Qed.
(** Zero confidence suggests no rows at all (with which every estimate is 2^63 - 1, countmin_zero_hashes_refuted). *)
Theorem countmin_zero_confidence_refuted flog : flog f_one = f_zero -> suggest_rows flog f_zero = Ans 0%Z.
Proof. intros E. unfold suggest_rows. change (flt f_zero f_zero || flt f_one f_zero) with false. cbv iota. replace (fdiv f_one (fsub f_one f_zero)) with f_one by (apply B2R_inj; [reflexivity|reflexivity|vm_compute; lra]). rewrite E. reflexivity. Qed.
(** A NaN passes both range tests, and a relative error below e / 2^31 asks for more buckets than an int32 counts. *)
Theorem countmin_suggestions_unspecified_refuted : suggest_buckets f_e f_nan = Unspecified /\ (forall flog, flog f_nan = f_nan -> suggest_rows flog f_nan = Unspecified) /\ suggest_buckets f_e (f_lit 1 (-40)) = Unspecified.
Proof. split; [reflexivity|]. split; [|vm_compute; reflexivity]. intros flog E. unfold suggest_rows. change (flt f_nan f_zero || flt f_one f_nan) with false. change (fdiv f_one (fsub f_one f_nan)) with f_nan. cbv iota. rewrite E. reflexivity. Qed.

(** ** Concrete cases *)
Lemma f_e_near : e_near f_e.
Proof.
  split; [reflexivity|]. assert (V : B2R f_e = 6121026514868073 / 2251799813685248) by (vm_compute; lra). rewrite V. destruct (exp_neg 1 9 ltac:(lra)) as (A & B). cbn [Nat.mul Nat.add horner Z.add Pos.add Pos.succ] in A, B. rewrite exp_Ropp in A, B. pose proof e_range as R.
  assert (H1 : exp 1 * / exp 1 = 1) by (apply Rinv_r; lra). set (i := / exp 1) in *. set (e := exp 1) in *. clearbody i e. apply Rabs_le. assert (S : / 2 ^ 50 = / 1125899906842624) by (cbn [pow]; lra). rewrite S.
  assert (I0 : 0 < i) by lra. split; apply Rmult_le_reg_r with i; auto; lra.
Qed.
(** The correctly rounded logarithm meets [log_near1]. *)
Lemma rounded_log_near1 : log_near1 rounded_log.
Proof.
  intros x F H. set (l := ln (B2R x)). assert (S53 : 0 < / 2 ^ 53 <= / 2 ^ 50) by (cbn [pow]; lra). assert (S50 : / 2 ^ 50 <= / 4) by (cbn [pow]; lra).
  assert (LB : 0 <= l <= 53).
  { unfold l. split; [rewrite <- ln_1; destruct (proj1 H) as [Q|Q]; [left; apply ln_increasing; lra|rewrite <- Q; lra]|]. apply Rle_trans with (ln (bpow radix2 53)); [replace (bpow radix2 53) with (2 ^ 53) by (cbn; lra); destruct (proj2 H) as [Q|Q]; [left; apply ln_increasing; lra|rewrite Q; lra]|].
    rewrite bpow_exp, ln_exp. change (IZR radix2) with 2. pose proof ln2_range. lra. }
  assert (E : exists u, near (/ 2 ^ 53) u /\ rnd l = l * u).
  { destruct (Req_dec (B2R x) 1) as [Q|Q]; [exists 1; split; [unfold near; lra|]; unfold l; rewrite Q, ln_1, (rnd_id 0 fmt_0); ring|]. apply near_rnd. apply (small_bpow (-60)); [lia|].
    assert (G : succ radix2 (SpecFloat.fexp 53 1024) 1 <= B2R x) by (apply succ_le_lt; try typeclasses eauto; [apply (fmt_IZR 1); lia|apply fmt_B|lra]).
    assert (SU : succ radix2 (SpecFloat.fexp 53 1024) 1 = 1 + / 2 ^ 52) by (rewrite succ_eq_pos by lra; change 1 with (bpow radix2 0) at 2; rewrite ulp_bpow; change (SpecFloat.fexp 53 1024 (0 + 1)) with (-52)%Z; cbn; lra). rewrite SU in G.
    pose proof (exp_ineq1_le (- l)) as Z. rewrite exp_Ropp in Z. unfold l in Z at 2. rewrite exp_ln in Z by lra. assert (S52 : 0 < / 2 ^ 52 <= / 2) by (cbn [pow]; lra).
    assert (I : / B2R x <= 1 - / 2 * / 2 ^ 52). { apply Rmult_le_reg_r with (B2R x); [lra|]. rewrite Rinv_l by lra. nra. }
    assert (B : bpow radix2 (-60) <= / 2 * / 2 ^ 52) by (cbn; lra). lra. }
  destruct E as (u & Nu & E). unfold near in Nu.
  pose proof (binary_normalize_correct 53 1024 _ _ mode_NE (Ztrunc (scaled_mantissa radix2 (SpecFloat.fexp 53 1024) (rnd l))) (cexp radix2 (SpecFloat.fexp 53 1024) (rnd l)) false) as C. cbv zeta in C.
  assert (G : fmt (rnd l)) by (apply generic_format_round; typeclasses eauto). unfold generic_format in G. rewrite <- G in C. rewrite (rnd_id (rnd l)) in C by (apply generic_format_round; typeclasses eauto).
  rewrite (big_lt (rnd l) 11) in C; [|lia|].
  - destruct C as (C1 & C2 & _). split; [exact C2|]. unfold rounded_log. fold l. cbv zeta. rewrite C1, E. apply Rabs_le. split; nra.
  - rewrite E. rewrite Rabs_pos_eq by nra. replace (bpow radix2 11) with 2048 by (cbn; lra). nra.
Qed.
Example ex_upper : valid (fun _ => Some 1%N) (Update (Update (New 2 3 7) [1%N] 5) [2%N] 6) /\ nonneg (stream (Update (Update (New 2 3 7) [1%N] 5) [2%N] 6)) /\ gross (stream (Update (Update (New 2 3 7) [1%N] 5) [2%N] 6)) = 11%Z.
Proof. split; [cbn; unfold int64; lia|]. split; [|reflexivity]. intros y [<-|[<-|[]]]; cbn; lia. Qed.
Example ex_buckets : exp 1 / B2R (f_lit 1 (-10)) <= 2 ^ 31 - 4.
Proof. replace (B2R (f_lit 1 (-10))) with (/ 1024) by (vm_compute; lra). pose proof e_range. unfold Rdiv. rewrite Rinv_inv. cbn [pow]. lra. Qed.
Print Assumptions countmin_upper_bound.
Print Assumptions countmin_suggested_buckets.
Print Assumptions countmin_suggested_rows.
