(** * C77: the estimates and confidence bounds of HLL sketches, in binary64.

    Specification vocabulary. A sketch is fed items, each given by its 128-bit hash (HllProps). [distinct xs] is the number of distinct codes
    of the items, [reg lgK xs i] the largest rank that fell into slot i, [empty_slots] the number of slots without item.
    [fle] is Go's <= on float64, [finite] excludes NaN and the infinities, [real x] is the real number of a finite float64.
    math.Log is a parameter of which only [log_ok] is used: at 1 <= x <= 2^53 it is finite and between 0 and x, and log 2 is between 1/2 and 1. *)
From Coq Require Import ZArith Reals Bool Psatz.
From Flocq Require Import Core BinarySingleNaN.
From Verif Require Import Base Bytes Arr FloatModel FloatProofs ReqRankProofs HllModel HllPack HllArrProofs HllMode HllUnion HllProps HllEstTables HllEstModel HllEstProofs HllEstCoupon HllEstHip HllEstComp.
From Coq Require Import Rdefinitions.
Local Open Scope R_scope.

Definition finite (x : f64) : Prop := is_finite x = true.
Definition real (x : f64) : R := B2R x.
Definition le64 (x y : f64) : Prop := fle x y = true.
Definition int64f (n : nat) : f64 := f_of_Z (Z.of_nat n).
(** Slots that hold something *)
Definition occupied (lgK : N) (xs : list item) : nat := (N.to_nat (2 ^ lgK) - empty_slots lgK xs)%nat.
(** A sketch certainly has seen this many distinct items *)
Definition seen (lgK : N) (xs : list item) (n : nat) : Prop :=
  (in_array lgK xs /\ n = occupied lgK xs) \/ (~ in_array lgK xs /\ n = distinct xs).
Definition feedF := feed (F := f64) f_zero hip_f coupon_est.
Definition urunF := urun (F := f64) f_zero hip_f coupon_est.
Definition compatibleF := all_compatible (F := f64) f_zero hip_f coupon_est.

(** ** Bridges *)
Lemma occupied_sum lgK cs xs : (lgK <= 21)%N -> (forall i, cs i = reg lgK xs i) -> Z.of_nat (occupied lgK xs) = sumf occ cs (nslots lgK).
Proof.
  intros HK H. pose proof (occ_count cs (nslots lgK)) as C. rewrite (count_empty lgK xs cs H) in C. unfold occupied. change (N.to_nat (2 ^ lgK)) with (nslots lgK). pose proof (sumf_bounds occ cs (nslots lgK) 0 1) as B.
  assert (Z.of_nat (nslots lgK) * 0 <= sumf occ cs (nslots lgK) <= Z.of_nat (nslots lgK) * 1)%Z by (apply B; intros; unfold occ; destruct (_ =? 0)%N; lia). lia.
Qed.
Lemma in_array_dec lgK xs : in_array lgK xs \/ ~ in_array lgK xs.
Proof. destruct (over lgK (dist (map code xs))) eqn:E; [left; apply over_array; auto|right; intros H; apply over_array in H; congruence]. Qed.
Lemma dist_rev xs : dist (rev (map code xs)) = distinct xs.
Proof. rewrite distinct_dist. apply dist_eq_same, same_rev. Qed.
Lemma rev_valid xs : Forall vcoupon (rev (map code xs)).
Proof. apply Forall_rev, codes_valid. Qed.
Lemma fed_view lgK t xs s : (4 <= lgK <= 21)%N -> feedF lgK t xs = Some s ->
  (in_array lgK xs /\ exists h, s = HArr t h /\ a_lgK h = lgK /\ a_ooo h = false /\ a_hip h = hipF lgK (rev (map code xs)) /\ unhit_of h = empty_slots lgK xs /\ kx h (regs lgK (rev (map code xs)))) \/
  (~ in_array lgK xs /\ (distinct xs <= Z.to_nat 196608)%nat /\ ((exists arr, s = HList lgK t arr (distinct xs)) \/ exists lg arr, s = HSet lgK t lg arr (distinct xs))).
Proof.
  intros HK E. destruct (feed_hinv f_zero hip_f coupon_est lgK t xs HK) as (_ & Hi). specialize (Hi s E). unfold hinv in Hi. rewrite dist_rev, distinct_dist in Hi.
  destruct (over lgK (dist (map code xs))) eqn:Eo.
  - left. split; [apply over_array; auto|]. destruct Hi as (Hv & h & -> & EK & Hai & Hk & Hh & E1 & E2 & E3). exists h. repeat split; auto; try apply Hk.
    change (unhit h = empty_slots lgK xs). rewrite (hits_all _ _ _ _ Hai Hh). unfold KK. rewrite EK. apply count_empty. intros i. rewrite (regs_same lgK _ _ i (same_rev xs)). apply regs_reg. lia.
  - right. split; [intros H; apply over_array in H; congruence|]. split; [rewrite distinct_dist; apply (under_dist lgK); auto; lia|].
    pose proof Hi as Hi'. pose proof (cst_sketch coupon_est (fun _ _ _ => f_zero) lgK t s _ xs Hi (same_rev xs)) as (El & Et & S).
    destruct s as [lg' t' arr cnt|lg' t' la arr cnt|]; cbn [st_lgK st_tgt] in *.
    + left. exists arr. destruct S as (_ & Hn & Hl & Hin). replace cnt with (distinct xs); [congruence|]. rewrite distinct_dist. rewrite <- Hl. symmetry. apply dist_same; auto. intros c. rewrite Hin. symmetry. apply in_map_code.
    + right. exists la, arr. destruct S as (_ & Hn & Hl & Hin). replace cnt with (distinct xs); [congruence|]. rewrite distinct_dist. rewrite <- Hl. symmetry. apply dist_same; auto. intros c. rewrite Hin. symmetry. apply in_map_code.
    + destruct Hi' as (_ & _ & _ & []).
Qed.
Lemma fed_estimate flog lgK t xs s : (4 <= lgK <= 21)%N -> feedF lgK t xs = Some s -> q_estimate flog s = Some (est_hist lgK (rev (map code xs))).
Proof.
  intros HK E. unfold est_hist. rewrite dist_rev, distinct_dist. destruct (fed_view lgK t xs s HK E) as [(Ha & h & -> & _ & Eo & Eh & _)|(Ha & Hd & Hs)].
  - apply over_array in Ha. rewrite Ha. cbn [q_estimate]. rewrite Eo, Eh. reflexivity.
  - destruct (over lgK (dist (map code xs))) eqn:Eo; [exfalso; apply Ha, over_array; auto|]. rewrite <- distinct_dist.
    destruct (coupon_est_ok (distinct xs) ltac:(lia)) as (Ec & _). destruct Hs as [(arr & ->)|(lg & arr & ->)]; exact Ec.
Qed.
Lemma le64_real x y : finite x -> finite y -> real x <= real y -> le64 x y.
Proof. intros Fx Fy H. apply fle_spec; auto. Qed.
Lemma int64f_ok n : (Z.of_nat n <= 2 ^ 53)%Z -> finite (int64f n) /\ real (int64f n) = IZR (Z.of_nat n).
Proof. intros H. apply of_Z_exact. lia. Qed.
Lemma occupied_le lgK xs : (lgK <= 21)%N -> (Z.of_nat (occupied lgK xs) <= 2 ^ 21)%Z.
Proof. intros H. pose proof (nslots_bound lgK H). unfold occupied. change (N.to_nat (2 ^ lgK)) with (nslots lgK). lia. Qed.
Lemma empty_le lgK xs : (empty_slots lgK xs <= nslots lgK)%nat.
Proof.
  unfold empty_slots, slots. assert (F : forall A (p : A -> bool) l, (length (filter p l) <= length l)%nat) by (induction l as [|a l IH]; cbn [filter length]; [lia|destruct (p a); cbn [length]; lia]).
  pose proof (F nat (fun i => (reg lgK xs i =? 0)%N) (seq 0 (N.to_nat (2 ^ lgK)))) as G. rewrite seq_length in G. exact G.
Qed.
Lemma nz_ok h lgK xs : a_lgK h = lgK -> (4 <= lgK <= 21)%N -> unhit_of h = empty_slots lgK xs -> finite (non_zeros h) /\ real (non_zeros h) = IZR (Z.of_nat (occupied lgK xs)).
Proof.
  intros EK HK Hu. pose proof (nslots_inv lgK HK) as BK. unfold non_zeros, unhit_of in *. rewrite EK. destruct (of_Z_exact (Z.of_nat (nslots lgK))) as (FK & VK); [lia|].
  pose proof (empty_le lgK xs) as He.
  destruct (a_curMin h =? 0)%N.
  - rewrite Hu. destruct (sub_exact (Z.of_nat (nslots lgK)) (Z.of_nat (empty_slots lgK xs))) as (F & V); [lia|lia|]. split; auto. unfold real. rewrite V. f_equal. unfold occupied. change (N.to_nat (2 ^ lgK)) with (nslots lgK). lia.
  - split; auto. unfold real. rewrite VK. f_equal. unfold occupied. rewrite <- Hu. change (N.to_nat (2 ^ lgK)) with (nslots lgK). lia.
Qed.
Lemma fed_hip lgK xs : (4 <= lgK <= 21)%N -> in_array lgK xs -> let e := hipF lgK (rev (map code xs)) in
  finite e /\ IZR (Z.of_nat (occupied lgK xs)) <= real e /\ 0 <= real e <= bpow radix2 300.
Proof.
  intros HK Ha e. assert (Ho : over lgK (dist (rev (map code xs))) = true). { rewrite dist_rev, distinct_dist. apply over_array. auto. }
  destruct (hip_ok lgK ltac:(lia) _ (rev_valid xs) Ho) as (F & B1 & B2). fold e in F, B1, B2.
  rewrite (occupied_sum lgK (regs lgK (rev (map code xs))) xs) by (try lia; intros i; rewrite (regs_same lgK _ _ i (same_rev xs)); apply regs_reg; lia).
  split; auto. split; auto. split.
  - eapply Rle_trans; [|exact B1]. rewrite <- (occupied_sum lgK (regs lgK (rev (map code xs))) xs) by (try lia; intros i; rewrite (regs_same lgK _ _ i (same_rev xs)); apply regs_reg; lia). apply IZR_le. lia.
  - eapply Rle_trans; [exact B2|]. change (bpow radix2 300) with (bpow radix2 (237 + 63)). rewrite bpow_plus. apply Rmult_le_compat_r; [apply bpow_ge_0|].
    apply Rle_trans with (bpow radix2 28); [|apply bpow_le; lia]. change (bpow radix2 28) with (IZR (2 ^ 28)). apply IZR_le. pose proof (rsum_bound lgK _ ltac:(lia) (rev_valid xs)). lia.
Qed.

(** ** C77 *)
(** A sketch fed one item at a time always gives an estimate, and confidence bounds for 1, 2 and 3 standard deviations. All are finite numbers, and
    (number certainly seen) <= lower bound <= estimate <= upper bound. *)
Theorem hll_bounds_enclose flog lgK t xs s n sd : log_ok flog -> (4 <= lgK <= 21)%N -> feedF lgK t xs = Some s -> seen lgK xs n -> (1 <= sd <= 3)%Z ->
  exists e lo up, q_estimate flog s = Some e /\ q_lower flog s sd = Some lo /\ q_upper flog s sd = Some up /\
    finite e /\ finite lo /\ finite up /\ le64 (int64f n) lo /\ le64 lo e /\ le64 e up.
Proof.
  intros HL HK E Hn Hsd. assert (Hs : sd_ok sd = true) by (apply sd_cases; lia).
  destruct (fed_view lgK t xs s HK E) as [(Ha & h & -> & EK & Eo & Eh & Eu & _)|(Ha & Hd & Hc)].
  - assert (Hn' : n = occupied lgK xs) by (destruct Hn as [(_ & ->)|(N & _)]; [auto|contradiction]). subst n.
    destruct (fed_hip lgK xs HK Ha) as (Fe & Le & Be). rewrite <- Eh in Fe, Le, Be. cbn [q_estimate q_lower q_upper]. rewrite Hs, Eo, EK. cbn [bindo].
    destruct (rel_err_ok flog HL true false lgK sd HK Hs) as (ru & -> & Fu & Bu). destruct (rel_err_ok flog HL false false lgK sd HK Hs) as (rl & -> & Fl & Bl). cbn [bindo rlim] in *.
    destruct (upper_ok (a_hip h) ru Fe Be Fu Bu) as (Fup & Lup & _). destruct (lower_ok (a_hip h) rl Fe Be Fl Bl) as (Flo & Llo & _). destruct (nz_ok h lgK xs EK HK Eu) as (Fz & Vz).
    destruct (fmax_fin _ _ Flo Fz) as (Fm & Vm). destruct (int64f_ok (occupied lgK xs)) as (Fi & Vi); [pose proof (occupied_le lgK xs ltac:(lia)); lia|].
    eexists _, _, _. split; [reflexivity|]. split; [reflexivity|]. split; [reflexivity|]. split; [exact Fe|]. split; [exact Fm|]. split; [exact Fup|]. unfold real in *.
    split; [apply le64_real; auto; unfold real; rewrite Vm, Vi, Vz; apply Rmax_r|]. split; [apply le64_real; auto; unfold real; rewrite Vm, Vz; apply Rmax_lub; [apply Llo|auto]|apply le64_real; auto].
  - assert (Hn' : n = distinct xs) by (destruct Hn as [(N & _)|(_ & ->)]; [contradiction|auto]). subst n.
    destruct (coupon_est_ok (distinct xs) ltac:(lia)) as (Ec & Fc & _). destruct (coupon_bounds_ok (distinct xs) sd ltac:(lia) Hs) as (lo & up & El & Eup & Flo & Fup & L1 & L2 & L3).
    destruct (int64f_ok (distinct xs)) as (Fi & Vi); [lia|].
    exists (coupon_est (distinct xs)), lo, up.
    assert (Q : q_estimate flog s = Some (coupon_est (distinct xs)) /\ q_lower flog s sd = Some lo /\ q_upper flog s sd = Some up) by (destruct Hc as [(arr & ->)|(lg & arr & ->)]; auto).
    destruct Q as (Q1 & Q2 & Q3). split; auto. split; auto. split; auto. split; auto. split; auto. split; auto.
    split; [apply le64_real; auto; unfold real in *; rewrite Vi; auto|]. split; apply le64_real; auto.
Qed.

(** In coupon modes the estimate is the number of items expected behind that many distinct codes, two items sharing a code with probability 1 / (3 * 2^26):
    n + n^2 / (6 * 2^26), to 1/16; and the sketch leaves these modes before n = 196609. *)
Theorem hll_coupon_estimate flog lgK t xs s : (4 <= lgK <= 21)%N -> feedF lgK t xs = Some s -> ~ in_array lgK xs ->
  exists e, q_estimate flog s = Some e /\ q_composite flog s = Some e /\ finite e /\ Rabs (real e - (INR (distinct xs) + INR (distinct xs) ^ 2 / (6 * 2 ^ 26))) <= 1 / 16.
Proof.
  intros HK E Hn. destruct (fed_view lgK t xs s HK E) as [(Ha & _)|(_ & Hd & Hc)]; [contradiction|].
  destruct (coupon_est_ok (distinct xs) ltac:(lia)) as (Ec & Fc & _ & A). exists (coupon_est (distinct xs)).
  assert (Q : q_composite flog s = Some (coupon_est (distinct xs))) by (destruct Hc as [(arr & ->)|(lg & arr & ->)]; exact Ec).
  split; [destruct Hc as [(arr & ->)|(lg & arr & ->)]; exact Q|]. split; auto. split; auto. unfold real. unfold ideal in A. rewrite mult_IZR, <- INR_IZR_INZ in A. change (IZR (2 ^ 26)) with 67108864 in A.
  replace (INR (distinct xs) ^ 2 / (6 * 2 ^ 26)) with (INR (distinct xs) * INR (distinct xs) / (6 * 67108864)) by (cbn [pow]; lra). lra.
Qed.

(** Feeding more items never lowers the estimate. *)
Theorem hll_estimate_grows flog lgK t xs ys s s' : (4 <= lgK <= 21)%N -> feedF lgK t xs = Some s -> feedF lgK t (xs ++ ys) = Some s' ->
  exists e e', q_estimate flog s = Some e /\ q_estimate flog s' = Some e' /\ le64 e e'.
Proof.
  intros HK E E'. rewrite (fed_estimate flog lgK t xs s HK E), (fed_estimate flog lgK t (xs ++ ys) s' HK E'). eexists _, _. split; [reflexivity|]. split; [reflexivity|].
  assert (FE : forall zs, finite (est_hist lgK (rev (map code zs)))).
  { intros zs. unfold est_hist. rewrite dist_rev. destruct (over lgK (distinct zs)) eqn:Eo.
    - apply fed_hip; auto. apply over_array. rewrite <- distinct_dist. auto.
    - apply coupon_est_ok. pose proof (under_dist lgK _ ltac:(lia) Eo). lia. }
  apply le64_real; auto. rewrite map_app, rev_app_distr. assert (Hv : Forall vcoupon (rev (map code ys) ++ rev (map code xs))) by (apply Forall_app; split; apply rev_valid). revert Hv.
  induction (rev (map code ys)) as [|c l IH]; cbn [app]; intros Hv; [apply Rle_refl|]. inversion Hv; subst. eapply Rle_trans; [apply IH; auto|]. apply est_hist_mono; [lia|auto].
Qed.

(** ** The value of the estimate in array mode *)
Definition inv_pow (v : N) : R := / 2 ^ N.to_nat v.
Definition rsum_of (f : N -> R) (rs : list N) : R := fold_right Rplus 0 (map f rs).
(** The probability that an item never seen before changes some slot: the mean over the slots of 2^-(rank held). *)
Definition change_prob (lgK : N) (xs : list item) : R := rsum_of inv_pow (map (reg lgK xs) (slots lgK)) / INR (N.to_nat (2 ^ lgK)).
Definition codes_expected (n : nat) : R := INR n + INR n ^ 2 / (6 * 2 ^ 26).
Definition array_mode (lgK : N) (xs : list item) : bool := (8 <=? distinct xs)%nat && ((lgK <? 8)%N || (3 * N.to_nat (2 ^ (lgK - 3)) <? 4 * distinct xs)%nat).
(** The historic inverse probability estimate, items latest first: when the codes are first spread over slots, the number of items expected behind them; then
    each item that changes a slot adds the inverse of the probability that this happens. *)
Fixpoint hip_value (lgK : N) (xs : list item) : R :=
  match xs with
  | [] => 0
  | x :: r =>
    if array_mode lgK r then
      if (reg lgK r (slot_of lgK x) <? rank_of x)%N then hip_value lgK r + / change_prob lgK r else hip_value lgK r
    else codes_expected (distinct xs)
  end.
Lemma array_mode_over lgK xs : array_mode lgK xs = over lgK (dist (map code xs)).
Proof. unfold array_mode, over. rewrite <- distinct_dist. destruct (lgK <? 8)%N; cbn [orb]; [apply andb_true_r|reflexivity]. Qed.
Lemma inv_pow_bpow v : inv_pow v = bpow radix2 (- Z.of_N v).
Proof. unfold inv_pow. rewrite bpow_opp. f_equal. rewrite <- (IZR_Zpower radix2) by lia. rewrite <- N_nat_Z, <- pow_IZR. reflexivity. Qed.
Lemma prob_sum lgK xs : (lgK <= 21)%N -> rsum_of inv_pow (map (reg lgK xs) (slots lgK)) = IZR (sumf weight (regs lgK (map code xs)) (nslots lgK)) * bpow radix2 (-63).
Proof.
  intros HK. rewrite sumf_sum. unfold rsum_of, slots. change (N.to_nat (2 ^ lgK)) with (nslots lgK). rewrite map_map. induction (seq 0 (nslots lgK)) as [|i l IH]; cbn [map fold_right]; [lra|].
  rewrite plus_IZR, Rmult_plus_distr_r, <- IH. f_equal. rewrite <- regs_reg by lia. pose proof (regs_lt lgK (map code xs) i (codes_valid xs)). rewrite inv_pow_bpow, weight_pow by auto.
  change (2 ^ (63 - Z.of_N (regs lgK (map code xs) i)))%Z with (Z.pow (radix_val radix2) (63 - Z.of_N (regs lgK (map code xs) i))). rewrite IZR_Zpower, <- bpow_plus by lia. f_equal. lia.
Qed.
Lemma rel_rnd x : bpow radix2 (-1000) <= x -> Rabs (rnd x - x) <= bpow radix2 (-53) * x.
Proof.
  intros H. pose proof (bpow_gt_0 radix2 (-1000)). destruct (rnd_rel x) as (eps & A & ->).
  { rewrite Rabs_pos_eq by lra. eapply Rle_trans; [|exact H]. apply bpow_le. lia. }
  replace (x * (1 + eps) - x) with (eps * x) by ring. rewrite Rabs_mult, (Rabs_pos_eq x) by lra. apply Rmult_le_compat_r; lra.
Qed.
Lemma inc_value lgK xs : (lgK <= 21)%N -> let r := regs lgK (map code xs) in let d := hip_inc lgK (sumf inv0 r (nslots lgK)) (sumf inv1 r (nslots lgK)) in
  1 <= / change_prob lgK xs /\ Rabs (B2R d - / change_prob lgK xs) <= 2 * bpow radix2 (-52) * / change_prob lgK xs.
Proof.
  intros HK r d. pose proof (nslots_bound lgK HK) as BK. pose proof (regs_low lgK (map code xs) (nslots lgK) (codes_valid xs)) as Hl. destruct (ksum_spec r (nslots lgK) Hl BK) as (Fs & Vs & Bs).
  destruct (kxq_bounds r (nslots lgK) Hl BK) as (_ & _ & BW & _). destruct (hip_inc_spec lgK r HK Hl) as (Fd & Bd). fold d in Fd, Bd.
  unfold change_prob. rewrite prob_sum by lia. fold r. change (N.to_nat (2 ^ lgK)) with (nslots lgK). rewrite INR_IZR_INZ. set (S := IZR (sumf weight r (nslots lgK)) * bpow radix2 (-63)) in *. set (K := IZR (Z.of_nat (nslots lgK))) in *.
  set (s := ksum (sumf inv0 r (nslots lgK)) (sumf inv1 r (nslots lgK))) in *. assert (PK : 1 <= K) by (apply IZR_le; lia). pose proof (bpow_gt_0 radix2 (-63)) as Pb.
  assert (SL : K * bpow radix2 (-63) <= S) by (apply Rmult_le_compat_r; [lra|]; apply IZR_le; lia).
  assert (SU : S <= K). { unfold S, K. apply Rle_trans with (IZR (Z.of_nat (nslots lgK) * 2 ^ 63) * bpow radix2 (-63)); [apply Rmult_le_compat_r; [lra|]; apply IZR_le; lia|]. rewrite mult_IZR. change (IZR (2 ^ 63)) with (bpow radix2 63). rewrite Rmult_assoc, <- bpow_plus. change (bpow radix2 (63 + -63)) with 1. lra. }
  assert (PS : bpow radix2 (-63) <= S) by (eapply Rle_trans; [|exact SL]; rewrite <- (Rmult_1_l (bpow radix2 (-63))) at 1; apply Rmult_le_compat_r; lra).
  assert (Es : Rabs (B2R s - S) <= bpow radix2 (-53) * S). { rewrite Vs. apply rel_rnd. eapply Rle_trans; [|exact PS]. apply bpow_le. lia. }
  assert (ED : / (S / K) = K / S) by (field; split; lra). rewrite ED.
  assert (Ed : B2R d = rnd (K / B2R s)).
  { unfold d, hip_inc. fold s. assert (EK : Z.of_N (2 ^ lgK) = Z.of_nat (nslots lgK)) by (unfold nslots; rewrite N_nat_Z; auto). rewrite EK. destruct (of_Z_exact (Z.of_nat (nslots lgK))) as (FK & VK); [lia|].
    assert (P0 : 0 < K * bpow radix2 (-63)) by (apply Rmult_lt_0_compat; lra).
    destruct (div_spec (f_of_Z (Z.of_nat (nslots lgK))) s 100) as (V & _ & _); auto; try lia; try lra.
    - rewrite VK. fold K. assert (0 < / B2R s) by (apply Rinv_0_lt_compat; lra). rewrite Rabs_pos_eq by (apply Rmult_le_pos; lra). apply Rmult_le_reg_r with (B2R s); [lra|]. unfold Rdiv. rewrite Rmult_assoc, Rinv_l by lra. rewrite Rmult_1_r.
      apply Rle_trans with (bpow radix2 100 * (K * bpow radix2 (-63))); [|apply Rmult_le_compat_l; [apply bpow_ge_0|lra]]. replace (bpow radix2 100 * (K * bpow radix2 (-63))) with (K * (bpow radix2 100 * bpow radix2 (-63))) by ring. rewrite <- bpow_plus.
      rewrite <- (Rmult_1_r K) at 1. apply Rmult_le_compat_l; [lra|]. apply (bpow_le radix2 0). lia.
    - rewrite V, VK. reflexivity. }
  assert (U : bpow radix2 (-53) <= / 1000) by (change (bpow radix2 (-53)) with (/ 9007199254740992); lra). pose proof (bpow_gt_0 radix2 (-53)) as PU. set (u := bpow radix2 (-53)) in *.
  assert (B52 : bpow radix2 (-52) = 2 * u) by (unfold u; change (bpow radix2 (-52)) with (bpow radix2 (1 + -53)); rewrite bpow_plus; reflexivity).
  apply Rabs_le_inv in Es. assert (Ps : 0 < B2R s) by nra.
  assert (Q1 : 1 <= K / S). { apply Rmult_le_reg_r with S; [lra|]. unfold Rdiv. rewrite Rmult_assoc, Rinv_l by lra. lra. }
  split; auto.
  assert (R1 : Rabs (K / B2R s - K / S) <= u * (K / B2R s)).
  { replace (K / B2R s - K / S) with (K / B2R s * ((S - B2R s) / S)) by (field; lra). rewrite Rabs_mult, Rmult_comm. assert (PQ : 0 <= K / B2R s) by (apply Rmult_le_pos; [lra|left; apply Rinv_0_lt_compat; lra]). rewrite (Rabs_pos_eq (K / B2R s)) by auto.
    apply Rmult_le_compat_r; auto. unfold Rdiv. rewrite Rabs_mult, (Rabs_pos_eq (/ S)) by (left; apply Rinv_0_lt_compat; lra). apply Rmult_le_reg_r with S; [lra|]. rewrite Rmult_assoc, Rinv_l by lra. rewrite Rmult_1_r. apply Rabs_le. lra. }
  assert (Q2 : bpow radix2 (-1000) <= K / B2R s). { apply Rle_trans with (/ 2); [change (/ 2) with (bpow radix2 (-1)); apply bpow_le; lia|]. apply Rmult_le_reg_r with (B2R s); [lra|]. unfold Rdiv. rewrite Rmult_assoc, Rinv_l by lra. nra. }
  pose proof (rel_rnd _ Q2) as R2. rewrite <- Ed in R2. fold u in R2. set (q := K / B2R s) in *. set (D := K / S) in *. apply Rabs_le_inv in R1, R2. apply Rabs_le. rewrite B52. assert (q <= 2 * D) by nra. nra.
Qed.
Theorem hip_value_ok lgK : (lgK <= 21)%N -> forall xs, over lgK (dist (map code xs)) = true ->
  8 <= hip_value lgK xs /\ Rabs (B2R (hipF lgK (map code xs)) - hip_value lgK xs) <= / 16 + IZR (3 + rsum lgK (map code xs)) * bpow radix2 (-52) * hip_value lgK xs.
Proof.
  intros HK. induction xs as [|x xs IH]; intros Ho.
  - unfold over in Ho. cbn in Ho. destruct (lgK <? 8)%N; discriminate.
  - cbn [map hip_spec hip_value]. rewrite array_mode_over. change (code x :: map code xs) with (map code (x :: xs)). destruct (over lgK (dist (map code xs))) eqn:Eo.
    + destruct (IH eq_refl) as (G & E). clear IH. pose proof (codes_valid xs) as Hv'. pose proof (codes_valid (x :: xs)) as Hv. pose proof (rsum_bound lgK (map code xs) HK Hv') as BR. pose proof (rsum_bound lgK (map code (x :: xs)) HK Hv) as BR'.
      rewrite cslot_code by lia. rewrite cval_code. rewrite regs_reg by lia.
      assert (RS : rsum lgK (map code (x :: xs)) = (if (reg lgK xs (slot_of lgK x) <? rank_of x)%N then rsum lgK (map code xs) - Z.of_N (reg lgK xs (slot_of lgK x)) + Z.of_N (rank_of x) else rsum lgK (map code xs))%Z).
      { unfold rsum. cbn [map]. rewrite regs_sum by auto. rewrite cslot_code by lia. rewrite cval_code. rewrite regs_reg by lia. reflexivity. }
      rewrite RS in *. destruct (N.ltb_spec (reg lgK xs (slot_of lgK x)) (rank_of x)) as [L|L]; [|auto].
      rewrite hip_f_inc. destruct (inc_value lgK xs HK) as (D1 & D2). destruct (hip_ok lgK HK _ Hv' Eo) as (F & B). destruct (hip_inc_spec lgK (regs lgK (map code xs)) HK (regs_low lgK _ _ Hv')) as (Fd & Bd).
      set (d := hip_inc _ _ _) in *. set (h := hipF lgK (map code xs)) in *. set (H := hip_value lgK xs) in *. set (D := / change_prob lgK xs) in *. split; [lra|].
      set (m := rsum lgK (map code xs)) in *. set (m' := (m - _ + _)%Z) in *. assert (Hm : (m + 1 <= m')%Z) by lia. clearbody m'.
      assert (Hh : 0 <= B2R h). { eapply Rle_trans; [|apply B]. apply IZR_le. pose proof (sumf_bounds occ (regs lgK (map code xs)) (nslots lgK) 0 1) as Bo. assert (Bo' : (Z.of_nat (nslots lgK) * 0 <= sumf occ (regs lgK (map code xs)) (nslots lgK) <= Z.of_nat (nslots lgK) * 1)%Z) by (apply Bo; intros; unfold occ; destruct (_ =? 0)%N; lia). lia. }
      assert (Sum : 0 <= B2R h + B2R d <= bpow radix2 116).
      { split; [lra|]. apply Rle_trans with (IZR (1 + m) * bpow radix2 63 + bpow radix2 63); [lra|]. replace (IZR (1 + m) * bpow radix2 63 + bpow radix2 63) with (IZR (2 + m) * bpow radix2 63) by (rewrite !plus_IZR; ring).
        change (bpow radix2 116) with (bpow radix2 (53 + 63)). rewrite bpow_plus. apply Rmult_le_compat_r; [apply bpow_ge_0|]. change (bpow radix2 53) with (IZR (2 ^ 53)). apply IZR_le. lia. }
      destruct (add_spec h d 116) as (V & _ & _); auto; try lia. { rewrite Rabs_pos_eq by lra. lra. }
      assert (R : Rabs (B2R (fadd h d) - (B2R h + B2R d)) <= bpow radix2 (-53) * (B2R h + B2R d)). { rewrite V. apply rel_rnd. apply Rle_trans with (bpow radix2 0); [apply bpow_le; lia|]. change (bpow radix2 0) with 1. lra. }
      apply Rabs_le_inv in E, D2, R. apply Rabs_le.
      assert (U : bpow radix2 (-52) = 2 * bpow radix2 (-53)) by (change (bpow radix2 (-52)) with (bpow radix2 (1 + -53)); rewrite bpow_plus; reflexivity). rewrite U in *. set (u := bpow radix2 (-53)) in *.
      assert (PU : 0 < u) by apply bpow_gt_0. assert (EP : IZR (3 + m) * (2 * u) <= / 4).
      { apply Rle_trans with (IZR (2 ^ 28) * (2 * u)); [apply Rmult_le_compat_r; [lra|]; apply IZR_le; lia|]. unfold u. change (bpow radix2 (-53)) with (/ 9007199254740992). change (IZR (2 ^ 28)) with 268435456. lra. }
      assert (E3 : 3 <= IZR (3 + m)) by (apply IZR_le; lia). assert (EM : IZR (3 + m) + 1 <= IZR (3 + m')) by (rewrite <- plus_IZR; apply IZR_le; lia). set (e := IZR (3 + m)) in *. set (e' := IZR (3 + m')) in *.
      assert (HU : u <= / 1000) by (unfold u; change (bpow radix2 (-53)) with (/ 9007199254740992); lra).
      assert (X1 : B2R h + B2R d <= 2 * (H + D)) by nra.
      assert (X2 : (e + 1) * (2 * u) * (H + D) <= e' * (2 * u) * (H + D)) by (apply Rmult_le_compat_r; [lra|]; apply Rmult_le_compat_r; lra).
      assert (X3 : u * (B2R h + B2R d) <= u * (2 * (H + D))) by (apply Rmult_le_compat_l; lra).
      assert (X4 : 2 * (2 * u) * D <= e * (2 * u) * D) by (apply Rmult_le_compat_r; [lra|]; apply Rmult_le_compat_r; lra).
      split; lra.
    + pose proof (under_dist lgK _ HK Eo) as U. pose proof (dist_cons_le (code x) (map code xs)) as Dc. assert (Hn : (dist (map code (x :: xs)) <= Z.to_nat 196609)%nat) by (cbn [map]; lia).
      destruct (coupon_est_ok _ Hn) as (_ & _ & _ & A). unfold ideal in A. rewrite mult_IZR, <- INR_IZR_INZ in A. change (IZR (2 ^ 26)) with 67108864 in A. rewrite distinct_dist. unfold codes_expected.
      assert (N8 : 8 <= INR (dist (map code (x :: xs)))). { change 8 with (IZR (Z.of_nat 8)). rewrite <- INR_IZR_INZ. apply le_INR. unfold over in Ho. destruct (lgK <? 8)%N; [apply Nat.leb_le; auto|]. apply andb_prop in Ho. apply Nat.leb_le, Ho. }
      set (n := INR (dist (map code (x :: xs)))) in *. replace (n ^ 2 / (6 * 2 ^ 26)) with (n * n / (6 * 67108864)) by (cbn [pow]; lra). assert (0 <= n * n / (6 * 67108864)) by nra. split; [lra|].
      assert (0 <= IZR (3 + rsum lgK (map code (x :: xs))) * bpow radix2 (-52) * (n + n * n / (6 * 67108864))). { apply Rmult_le_pos; [|lra]. apply Rmult_le_pos; [|apply bpow_ge_0]. apply IZR_le. pose proof (rsum_bound lgK _ HK (codes_valid (x :: xs))). lia. }
      lra.
Qed.
(** In array mode the estimate is that value, to 1/16 and a relative 2^-24. *)
Theorem hll_hip_estimate flog lgK t xs s : (4 <= lgK <= 21)%N -> feedF lgK t xs = Some s -> in_array lgK xs ->
  exists e, q_estimate flog s = Some e /\ finite e /\ Rabs (real e - hip_value lgK (rev xs)) <= / 16 + / 2 ^ 24 * hip_value lgK (rev xs).
Proof.
  intros HK E Ha. rewrite (fed_estimate flog lgK t xs s HK E). unfold est_hist. rewrite dist_rev, distinct_dist. pose proof (proj2 (over_array lgK xs) Ha) as Ho. rewrite Ho. eexists. split; [reflexivity|].
  split; [apply fed_hip; auto|]. assert (Ho' : over lgK (dist (map code (rev xs))) = true) by (rewrite map_rev, dist_rev, distinct_dist; auto).
  destruct (hip_value_ok lgK ltac:(lia) (rev xs) Ho') as (G & B). rewrite map_rev in B. unfold real. eapply Rle_trans; [exact B|]. apply Rplus_le_compat_l, Rmult_le_compat_r; [lra|].
  pose proof (rsum_bound lgK (rev (map code xs)) ltac:(lia) (rev_valid xs)) as BR. apply Rle_trans with (IZR (2 ^ 28) * bpow radix2 (-52)); [apply Rmult_le_compat_r; [apply bpow_ge_0|]; apply IZR_le; lia|].
  change (IZR (2 ^ 28)) with 268435456. change (bpow radix2 (-52)) with (/ 4503599627370496). lra.
Qed.

(** More standard deviations give wider bounds; other numbers of standard deviations than 1, 2 and 3 are refused. *)
Theorem hll_bounds_widen flog lgK t xs s s1 s2 lo1 up1 lo2 up2 : log_ok flog -> (4 <= lgK <= 21)%N -> feedF lgK t xs = Some s -> (s1 <= s2)%Z ->
  q_lower flog s s1 = Some lo1 -> q_upper flog s s1 = Some up1 -> q_lower flog s s2 = Some lo2 -> q_upper flog s s2 = Some up2 -> le64 lo2 lo1 /\ le64 up1 up2.
Proof.
  intros HL HK E Hss.
  destruct (fed_view lgK t xs s HK E) as [(Ha & h & -> & EK & Eo & Eh & Eu & _)|(Ha & Hd & Hc)].
  - destruct (fed_hip lgK xs HK Ha) as (Fe & Le & Be). rewrite <- Eh in Fe, Le, Be. cbn [q_estimate q_lower q_upper]. rewrite Eo, EK. cbn [bindo].
    destruct (sd_ok s1) eqn:H1; [|discriminate]. destruct (sd_ok s2) eqn:H2; [|discriminate].
    destruct (rel_err_ok flog HL true false lgK s1 HK H1) as (ru1 & E1 & Fu1 & Bu1). destruct (rel_err_ok flog HL false false lgK s1 HK H1) as (rl1 & E2 & Fl1 & Bl1).
    destruct (rel_err_ok flog HL true false lgK s2 HK H2) as (ru2 & E3 & Fu2 & Bu2). destruct (rel_err_ok flog HL false false lgK s2 HK H2) as (rl2 & E4 & Fl2 & Bl2).
    pose proof (rel_err_mono flog HL true false lgK s1 s2 ru1 ru2 HK H1 H2 Hss E1 E3) as Mu. pose proof (rel_err_mono flog HL false false lgK s1 s2 rl1 rl2 HK H1 H2 Hss E2 E4) as Ml.
    rewrite E1, E2, E3, E4. cbn [bindo rlim] in *. intros A1 A2 A3 A4. assert (A1' := f_equal (fun o => match o with Some x => x | None => f_nan end) A1). assert (A2' := f_equal (fun o => match o with Some x => x | None => f_nan end) A2).
    assert (A3' := f_equal (fun o => match o with Some x => x | None => f_nan end) A3). assert (A4' := f_equal (fun o => match o with Some x => x | None => f_nan end) A4). cbv iota beta in A1', A2', A3', A4'. subst lo1 up1 lo2 up2.
    destruct (upper_ok (a_hip h) ru1 Fe Be Fu1 Bu1) as (F1 & _ & D1 & W1 & V1). destruct (upper_ok (a_hip h) ru2 Fe Be Fu2 Bu2) as (F2 & _ & D2 & W2 & V2).
    destruct (lower_ok (a_hip h) rl1 Fe Be Fl1 Bl1) as (F3 & _ & D3 & W3 & V3). destruct (lower_ok (a_hip h) rl2 Fe Be Fl2 Bl2) as (F4 & _ & D4 & W4 & V4). destruct (nz_ok h lgK xs EK HK Eu) as (Fz & Vz).
    destruct (fmax_fin _ _ F3 Fz) as (Fm3 & Vm3). destruct (fmax_fin _ _ F4 Fz) as (Fm4 & Vm4). unfold real in *.
    split; apply le64_real; auto; unfold real.
    + rewrite Vm3, Vm4, V3, V4. apply Rle_max_compat_r. apply div_fac_mono; [lra|lra|]. rewrite W3, W4. apply rnd_le. lra.
    + rewrite V1, V2. apply div_fac_mono; [lra|lra|]. rewrite W1, W2. apply rnd_le. lra.
  - intros A1 A2 A3 A4.
    assert (Q : coupon_lower (distinct xs) s1 = Some lo1 /\ coupon_upper (distinct xs) s1 = Some up1 /\ coupon_lower (distinct xs) s2 = Some lo2 /\ coupon_upper (distinct xs) s2 = Some up2) by (destruct Hc as [(arr & ->)|(lg & arr & ->)]; auto).
    destruct Q as (Q1 & Q2 & Q3 & Q4). destruct (coupon_bounds_sd (distinct xs) s1 s2 lo1 up1 lo2 up2 ltac:(lia) Hss Q1 Q2 Q3 Q4) as (L1 & L2).
    assert (S1 : sd_ok s1 = true) by (destruct (sd_ok s1) eqn:X; auto; destruct (coupon_bad_sd (distinct xs) s1 X); congruence). assert (S2 : sd_ok s2 = true) by (destruct (sd_ok s2) eqn:X; auto; destruct (coupon_bad_sd (distinct xs) s2 X); congruence).
    destruct (coupon_bounds_ok (distinct xs) s1 ltac:(lia) S1) as (x1 & y1 & X1 & Y1 & FX1 & FY1 & _). destruct (coupon_bounds_ok (distinct xs) s2 ltac:(lia) S2) as (x2 & y2 & X2 & Y2 & FX2 & FY2 & _).
    assert (x1 = lo1) by congruence. assert (y1 = up1) by congruence. assert (x2 = lo2) by congruence. assert (y2 = up2) by congruence. subst. split; apply le64_real; auto.
Qed.
Theorem hll_bad_std_devs flog s sd : ~ (1 <= sd <= 3)%Z -> q_lower flog s sd = None /\ q_upper flog s sd = None.
Proof.
  intros H. assert (Hs : sd_ok sd = false). { destruct (sd_ok sd) eqn:X; auto. apply sd_cases in X. lia. } destruct s; cbn [q_lower q_upper]; try (apply coupon_bad_sd; auto). rewrite Hs. auto.
Qed.

(** ** The two sums of inverse powers *)
(** The pair holds, exactly, the sum of 2^-v over the registers below 32 and over the others. *)
Definition kxq_holds (rs : list N) (q : f64 * f64) : Prop :=
  finite (fst q) /\ finite (snd q) /\ real (fst q) = rsum_of (fun v => if (v <? 32)%N then inv_pow v else 0) rs /\ real (snd q) = rsum_of (fun v => if (v <? 32)%N then 0 else inv_pow v) rs.
(** A history of register updates: each (slot, v) with v above the register replaces it *)
Fixpoint kxq_run (ups : list (nat * N)) (rs : list N) (q : f64 * f64) : list N * (f64 * f64) :=
  match ups with
  | [] => (rs, q)
  | (i, v) :: r => let old := nth i rs 0%N in if (old <? v)%N && (i <? length rs)%nat then kxq_run r (upd i v rs) (kxq_step old v q) else kxq_run r rs q
  end.
Definition sumL (f : N -> Z) (rs : list N) : Z := fold_right Z.add 0%Z (map f rs).
Lemma sumL_upd f : forall rs i v, (i < length rs)%nat -> sumL f (upd i v rs) = (sumL f rs - f (nth i rs 0%N) + f v)%Z.
Proof.
  induction rs as [|a rs IH]; intros i v Hi; cbn [length] in Hi; [lia|]. destruct i as [|i]; cbn [upd nth]; unfold sumL in *; cbn [map fold_right]; [lia|]. rewrite IH by lia. lia.
Qed.
Lemma sumL_bounds f rs lo hi : Forall (fun v => lo <= f v <= hi)%Z rs -> (Z.of_nat (length rs) * lo <= sumL f rs <= Z.of_nat (length rs) * hi)%Z.
Proof. induction 1; unfold sumL in *; cbn [map fold_right length]; lia. Qed.
Lemma sumL_elem f : forall rs i, Forall (fun v => 0 <= f v)%Z rs -> (i < length rs)%nat -> (f (nth i rs 0%N) <= sumL f rs)%Z.
Proof.
  assert (P : forall rs, Forall (fun v => 0 <= f v)%Z rs -> (0 <= sumL f rs)%Z) by (induction 1; unfold sumL in *; cbn [map fold_right]; lia).
  induction rs as [|a rs IH]; intros i H Hi; cbn [length] in Hi; [lia|]. inversion H as [|? ? Ha Hr]; subst. pose proof (P rs Hr) as Pr. destruct i as [|i]; cbn [nth]; unfold sumL in *; cbn [map fold_right]; [lia|]. specialize (IH i Hr ltac:(lia)). lia.
Qed.
Definition low6 (rs : list N) : Prop := Forall (fun v => v < 64)%N rs.
Lemma upd_low6 : forall rs i v, low6 rs -> (v < 64)%N -> low6 (upd i v rs).
Proof. unfold low6. induction rs as [|a rs IH]; intros i v H Hv; destruct i; cbn [upd]; auto; inversion H; subst; constructor; auto. Qed.
Lemma sums_range rs : low6 rs -> (Z.of_nat (length rs) <= 2 ^ 21)%Z -> (0 <= sumL inv0 rs <= 2 ^ 52)%Z /\ (0 <= sumL inv1 rs <= 2 ^ 52)%Z.
Proof.
  intros H HL. assert (H0 : Forall (fun v => 0 <= inv0 v <= 2 ^ 31)%Z rs) by (eapply Forall_impl; [|exact H]; intros; apply inv0_bound). assert (H1 : Forall (fun v => 0 <= inv1 v <= 2 ^ 31)%Z rs) by (eapply Forall_impl; [|exact H]; intros; apply inv1_bound; auto).
  apply sumL_bounds in H0, H1. change (2 ^ 31)%Z with 2147483648%Z in *. change (2 ^ 52)%Z with 4503599627370496%Z. change (2 ^ 21)%Z with 2097152%Z in *. lia.
Qed.
Lemma kxq_run_exact : forall ups rs, Forall (fun u => (snd u < 64)%N) ups -> low6 rs -> (Z.of_nat (length rs) <= 2 ^ 21)%Z ->
  let '(rs', q') := kxq_run ups rs (kxq_of (sumL inv0 rs) (sumL inv1 rs)) in low6 rs' /\ length rs' = length rs /\ q' = kxq_of (sumL inv0 rs') (sumL inv1 rs').
Proof.
  induction ups as [|(i, v) ups IH]; intros rs Hu Hr HL; cbn [kxq_run]; [auto|]. inversion Hu as [|? ? Hv Hu']; subst. cbn [snd] in Hv.
  destruct (N.ltb_spec (nth i rs 0%N) v) as [L|L]; [|apply IH; auto]. destruct (Nat.ltb_spec i (length rs)) as [Li|Li]; [|apply IH; auto]. cbn [andb].
  destruct (sums_range rs Hr HL) as (R0 & R1). assert (Ho : (nth i rs 0 < 64)%N) by (unfold low6 in Hr; rewrite Forall_forall in Hr; apply Hr, nth_In; auto).
  rewrite kxq_step_exact; auto.
  - rewrite <- !sumL_upd by auto. specialize (IH (upd i v rs) Hu' (upd_low6 rs i v Hr Hv)). rewrite upd_length in IH. specialize (IH HL). destruct (kxq_run ups (upd i v rs) _) as (rs' & q'). exact IH.
  - split; [|lia]. apply sumL_elem; auto. eapply Forall_impl; [|exact Hr]. intros; apply inv0_bound.
  - split; [|lia]. apply sumL_elem; auto. eapply Forall_impl; [|exact Hr]. intros a Ha. apply inv1_bound; auto.
Qed.
Lemma holds_of rs : low6 rs -> (Z.of_nat (length rs) <= 2 ^ 21)%Z -> kxq_holds rs (kxq_of (sumL inv0 rs) (sumL inv1 rs)).
Proof.
  intros Hr HL. destruct (sums_range rs Hr HL) as (R0 & R1). destruct (lit_spec (sumL inv0 rs) (-31)) as (F0 & V0); [lia|lia|]. destruct (lit_spec (sumL inv1 rs) (-63)) as (F1 & V1); [lia|lia|].
  split; auto. split; auto. unfold kxq_of, real. cbn [fst snd]. rewrite V0, V1. clear -Hr. split; induction Hr as [|v rs Hv Hr IH]; unfold sumL, rsum_of in *; cbn [map fold_right]; try (cbn; lra); rewrite plus_IZR, Rmult_plus_distr_r, IH; f_equal.
  - unfold inv0. destruct (N.ltb_spec v 32); [|lra]. change (2 ^ (31 - Z.of_N v))%Z with (Z.pow (radix_val radix2) (31 - Z.of_N v)). rewrite IZR_Zpower, <- bpow_plus, inv_pow_bpow by lia. f_equal. lia.
  - unfold inv1. destruct (N.ltb_spec v 32); [lra|]. change (2 ^ (63 - Z.of_N v))%Z with (Z.pow (radix_val radix2) (63 - Z.of_N v)). rewrite IZR_Zpower, <- bpow_plus, inv_pow_bpow by lia. f_equal. lia.
Qed.
Lemma start_kxq K : (Z.of_nat K <= 2 ^ 21)%Z -> (f_of_Z (Z.of_nat K), f_zero) = kxq_of (sumL inv0 (repeat 0%N K)) (sumL inv1 (repeat 0%N K)).
Proof.
  intros HK. assert (S0 : sumL inv0 (repeat 0%N K) = (Z.of_nat K * 2 ^ 31)%Z). { clear HK. unfold sumL. induction K; cbn [repeat map fold_right]; [lia|]. rewrite IHK. change (inv0 0) with (2 ^ 31)%Z. lia. }
  assert (S1 : sumL inv1 (repeat 0%N K) = 0%Z). { clear HK S0. unfold sumL. induction K; cbn [repeat map fold_right]; [lia|]. rewrite IHK. reflexivity. }
  rewrite S0, S1. unfold kxq_of. f_equal. apply (good_unique _ _ (Z.of_nat K * 2 ^ 31) (-31)).
  - apply good_shift; [lia|]. change (-31 + 31)%Z with 0%Z. apply (good_lit (Z.of_nat K) 0); lia.
  - apply good_lit; [|lia]. change (2 ^ 31)%Z with 2147483648%Z. change (2 ^ 53)%Z with 9007199254740992%Z. change (2 ^ 21)%Z with 2097152%Z in HK. lia.
Qed.
Lemma lit_rnd m : (0 < m <= 2 ^ 84)%Z -> is_finite (f_lit m (-63)) = true /\ B2R (f_lit m (-63)) = rnd (IZR m * bpow radix2 (-63)).
Proof.
  intros H. pose proof (binary_normalize_correct 53 1024 _ _ mode_NE m (-63) false) as C. cbv zeta in C. change (F2R (Float radix2 m (-63))) with (IZR m * bpow radix2 (-63)) in C.
  rewrite (big_lt _ 21) in C.
  - destruct C as (A & B & _). split; auto.
  - lia.
  - rewrite Rabs_pos_eq by (apply rnd_ge; [apply fmt_0|]; apply Rmult_le_pos; [apply IZR_le; lia|apply bpow_ge_0]). apply rnd_le_gen; [apply fmt_bpow; lia|]. apply Rle_trans with (IZR (2 ^ 84) * bpow radix2 (-63)); [apply Rmult_le_compat_r; [apply bpow_ge_0|apply IZR_le; lia]|].
    change (IZR (2 ^ 84)) with (bpow radix2 84). rewrite <- bpow_plus. apply Rle_refl.
Qed.
Lemma sumL_sumf f rs : sumL f rs = sumf f (fun i => nth i rs 0%N) (length rs).
Proof.
  rewrite sumf_sum. unfold sumL. f_equal. induction rs as [|a rs IH]; auto. cbn [length seq map nth]. f_equal. rewrite <- seq_shift, map_map. exact IH.
Qed.
Lemma total_of rs : low6 rs -> rsum_of inv_pow rs = IZR (sumL weight rs) * bpow radix2 (-63).
Proof.
  induction 1 as [|v rs Hv Hr IH]; unfold sumL, rsum_of in *; cbn [map fold_right]; [cbn; lra|]. rewrite plus_IZR, Rmult_plus_distr_r, IH. f_equal.
  rewrite inv_pow_bpow, weight_pow by auto. change (2 ^ (63 - Z.of_N v))%Z with (Z.pow (radix_val radix2) (63 - Z.of_N v)). rewrite IZR_Zpower, <- bpow_plus by lia. f_equal. lia.
Qed.
Lemma add_total rs : low6 rs -> (1 <= Z.of_nat (length rs) <= 2 ^ 21)%Z -> let q := kxq_of (sumL inv0 rs) (sumL inv1 rs) in
  finite (fadd (fst q) (snd q)) /\ real (fadd (fst q) (snd q)) = rnd (rsum_of inv_pow rs).
Proof.
  intros Hr HL q. unfold q. rewrite !sumL_sumf, total_of, sumL_sumf by auto. assert (Hl : low (fun i => nth i rs 0%N) (length rs)) by (intros i Hi; unfold low6 in Hr; rewrite Forall_forall in Hr; apply Hr, nth_In; auto).
  destruct (ksum_spec _ _ Hl HL) as (F & V & _). split; auto.
Qed.
(** C77. Starting from K empty slots (kxq0 = K, kxq1 = 0), after any history of register updates the two float64 accumulators hold the two sums exactly: their
    additions and subtractions never round. Their float64 sum, which the estimators use, is the total rounded once. *)
Theorem hll_kxq_exact K ups rs q : (1 <= Z.of_nat K <= 2 ^ 21)%Z -> Forall (fun u => (snd u < 64)%N) ups -> kxq_run ups (repeat 0%N K) (f_of_Z (Z.of_nat K), f_zero) = (rs, q) ->
  kxq_holds rs q /\ finite (fadd (fst q) (snd q)) /\ real (fadd (fst q) (snd q)) = rnd (rsum_of inv_pow rs).
Proof.
  intros HK Hu E. rewrite start_kxq in E by lia. assert (Hr : low6 (repeat 0%N K)). { apply Forall_forall. intros v Hv. apply repeat_spec in Hv. subst. lia. }
  assert (HL : (Z.of_nat (length (repeat 0%N K)) <= 2 ^ 21)%Z) by (rewrite repeat_length; lia). pose proof (kxq_run_exact ups _ Hu Hr HL) as R. rewrite E in R. destruct R as (A & B & ->). rewrite repeat_length in B. split; [apply holds_of; auto; rewrite B; lia|apply add_total; auto; rewrite B; lia].
Qed.

(** The sums recomputed when a union gives its result (union.go:317-347) hold the same sums exactly if no register is above 31. *)
Theorem hll_rebuild_exact rs : (1 <= Z.of_nat (length rs) <= 2 ^ 21)%Z -> Forall (fun v => (v < 32)%N) rs -> let q := rebuild_kxq rs (f_of_Z (Z.of_nat (length rs)), f_zero) in
  kxq_holds rs q /\ finite (fadd (fst q) (snd q)) /\ real (fadd (fst q) (snd q)) = rnd (rsum_of inv_pow rs).
Proof.
  intros HL Hv. assert (Hr : low6 rs) by (eapply Forall_impl; [|exact Hv]; intros; cbv beta in *; lia). cbv zeta.
  assert (E : rebuild_kxq rs (f_of_Z (Z.of_nat (length rs)), f_zero) = kxq_of (sumL inv0 rs) (sumL inv1 rs)).
  { rewrite start_kxq by lia. unfold kxq_of at 1. assert (S0 : sumL inv0 (repeat 0%N (length rs)) = (Z.of_nat (length rs) * 2 ^ 31)%Z). { clear. unfold sumL. induction (length rs) as [|n IH]; [reflexivity|]. cbn [repeat map fold_right]. rewrite IH. change (inv0 0) with (2 ^ 31)%Z. lia. }
    assert (S1 : sumL inv1 (repeat 0%N (length rs)) = 0%Z). { clear. unfold sumL. induction (length rs); cbn [repeat map fold_right]; [lia|]. rewrite IHn. reflexivity. }
    assert (S2 : sumL inv1 rs = 0%Z). { clear -Hv. unfold sumL. induction Hv as [|v rs H Hv IH]; cbn [map fold_right]; [lia|]. rewrite IH. unfold inv1. destruct (N.ltb_spec v 32); lia. }
    rewrite S0, S1, rebuild_low; auto.
    - unfold kxq_of. rewrite S2. f_equal. f_equal. change (sum0 rs) with (sumL inv0 rs). lia.
    - change (2 ^ 31)%Z with 2147483648%Z. change (2 ^ 52)%Z with 4503599627370496%Z. change (2 ^ 21)%Z with 2097152%Z in HL. lia. }
  rewrite E. split; [apply holds_of; auto; lia|apply add_total; auto].
Qed.
(** Above 31 the recomputation subtracts 1 from kxq1 for each such register and rounds: 16 slots of rank 60 give the sum 0 instead of 16 * 2^-60, and the estimate
    is +Inf. *)
Theorem hll_rebuild_infinite_refuted flog : let rs := repeat 60%N 16 in let q := rebuild_kxq rs (f_of_Z (Z.of_nat (length rs)), f_zero) in
  fadd (fst q) (snd q) = f_zero /\ rsum_of inv_pow rs = 16 * / 2 ^ 60 /\ comp_est flog 4 (fadd (fst q) (snd q)) 0 = Some (B754_infinity false).
Proof.
  cbv zeta. assert (E : fadd (fst (rebuild_kxq (repeat 60%N 16) (f_of_Z (Z.of_nat (length (repeat 60%N 16))), f_zero))) (snd (rebuild_kxq (repeat 60%N 16) (f_of_Z (Z.of_nat (length (repeat 60%N 16))), f_zero))) = f_zero) by (vm_compute; reflexivity).
  rewrite E. split; auto. split; [|vm_compute; reflexivity]. unfold rsum_of, inv_pow. change (N.to_nat 60) with 60%nat. cbn [repeat map fold_right]. change (N.to_nat 60) with 60%nat. lra.
Qed.

(** ** The composite estimate, of sketches and of union results *)
Definition compF (flog : f64 -> f64) (lgK : N) (total : Z) (unhit : nat) : f64 := match comp_est flog lgK (f_lit total (-63)) unhit with Some e => e | None => f_nan end.
Lemma sum_pow_range lgK xs : (4 <= lgK <= 21)%N -> (0 < sum_pow lgK xs <= 2 ^ 84)%Z.
Proof.
  intros HK. rewrite <- (sumf_pow lgK xs (reg lgK xs)) by (auto; lia). pose proof (nslots_inv lgK HK) as BK. pose proof (sumf_bounds wt (reg lgK xs) (nslots lgK) 1 (2 ^ 63)) as B.
  assert (W : (Z.of_nat (nslots lgK) * 1 <= sumf wt (reg lgK xs) (nslots lgK) <= Z.of_nat (nslots lgK) * 2 ^ 63)%Z).
  { apply B. intros i Hi. unfold wt. pose proof (regs_lt lgK (map code xs) i (codes_valid xs)) as Hb. rewrite regs_reg in Hb by lia. split; [apply (Z.pow_le_mono_r 2 0); lia|apply Z.pow_le_mono_r; lia]. }
  change (2 ^ 63)%Z with 9223372036854775808%Z in W. change (2 ^ 84)%Z with 19342813113834066795298816%Z. change (2 ^ 21)%Z with 2097152%Z in BK. lia.
Qed.
(** The composite estimate is computed from the slots alone, whatever the order of the items, is finite and the computation never fails. *)
Theorem hll_composite_estimate flog lgK t s xs : log_ok flog -> (4 <= lgK <= 21)%N -> sketch_of coupon_est (compF flog) lgK t s xs -> in_array lgK xs ->
  exists e, q_composite flog s = Some e /\ finite e /\ comp_est flog lgK (f_lit (sum_pow lgK xs) (-63)) (empty_slots lgK xs) = Some e /\
    finite (f_lit (sum_pow lgK xs) (-63)) /\ real (f_lit (sum_pow lgK xs) (-63)) = rnd (rsum_of inv_pow (map (reg lgK xs) (slots lgK))).
Proof.
  intros HL HK (El & Et & S) Ha. destruct (lit_rnd _ (sum_pow_range lgK xs HK)) as (Fl & Vl).
  destruct (comp_ok flog HL lgK (f_lit (sum_pow lgK xs) (-63)) (empty_slots lgK xs) HK) as (e & Ee & Fe).
  { rewrite Vl. apply rnd_ge; [apply fmt_bpow; lia|]. rewrite <- (Rmult_1_l (bpow radix2 (-63))) at 1. apply Rmult_le_compat_r; [apply bpow_ge_0|]. apply IZR_le. pose proof (sum_pow_range lgK xs HK). lia. }
  { apply empty_le. }
  exists e. destruct s as [lg' t' arr cnt|lg' t' la arr cnt|t' h]; cbn [st_lgK st_tgt] in *.
  - exfalso. destruct S as (Hl & _). unfold in_list, in_array in *. destruct Ha as (A & B). lia.
  - exfalso. destruct S as (Hl & _). unfold in_set, in_array in *. lia.
  - destruct S as (_ & _ & G). unfold get_composite, compF in G. rewrite Ee in G. rewrite El in G. cbn [q_composite]. unfold kxq_sum, unhit_of. rewrite El.
    split; [|split; [apply Fe|]; split; auto].
    + destruct (comp_est flog lgK _ _) as [e'|] in *; [congruence|]. subst e. destruct Fe as (Fe & _). discriminate.
    + split; auto. unfold real. rewrite Vl. f_equal. rewrite total_of.
      * f_equal. f_equal. unfold sum_pow, sumL. f_equal. rewrite map_map. apply map_ext. intros i. pose proof (regs_lt lgK (map code xs) i (codes_valid xs)) as Hb. rewrite regs_reg in Hb by lia. symmetry. apply weight_pow. lia.
      * apply Forall_forall. intros v Hv. apply in_map_iff in Hv. destruct Hv as (i & <- & _). pose proof (regs_lt lgK (map code xs) i (codes_valid xs)) as Hb. rewrite regs_reg in Hb by lia. lia.
Qed.
Lemma union_range lgMax u0 os u : un_new lgMax = Some u0 -> compatibleF u0 os -> urunF u0 os = Some u -> (4 <= st_lgK (u_gadget u) <= 21)%N.
Proof.
  intros En Hc Er. destruct (new_uinv f_zero hip_f coupon_est lgMax u0 En) as [_ U0]. destruct (urun_uinv f_zero hip_f coupon_est os u0 [] U0 Hc) as (u2 & Er2 & _ & ys & Hu & _).
  change (urunF u0 os = Some u2) in Er2. rewrite Er in Er2. injection Er2 as <-. destruct Hu as (_ & [(_ & cs & Hh & _)|(gl & _ & _ & Hr & _)]).
  - apply hinv_repr in Hh. pose proof (repr_range _ _ _ _ Hh) as (HK & EK & _). rewrite EK. lia.
  - pose proof (repr_range _ _ _ _ Hr) as (HK & EK & _). rewrite EK. lia.
Qed.
(** The result of a union has the composite estimate of one sketch fed all the items (ranks below 32: there the recomputed sums are exact, [hll_rebuild_exact]). *)
Theorem hll_union_estimate flog lgMax u0 os u t u' s t' xs s1 : log_ok flog -> un_new lgMax = Some u0 -> compatibleF u0 os -> urunF u0 os = Some u -> un_result f_zero hip_f u t = Some (u', s) ->
  Forall (fun x => (rank_of x < 32)%N) (all_items os) -> in_array (st_lgK s) (all_items os) -> feedF (st_lgK s) t' xs = Some s1 -> (forall x, In x xs <-> In x (all_items os)) ->
  exists e, q_composite flog s = Some e /\ q_composite flog s1 = Some e /\ finite e.
Proof.
  intros HL En Hc Er Eu _ Ha Ef Hx. destruct (hll_union_exact f_zero hip_f coupon_est (compF flog) lgMax u0 os t En Hc) as (u2 & Er2 & _ & Hu). change (urunF u0 os = Some u2) in Er2. rewrite Er in Er2. injection Er2 as <-.
  destruct (Hu u' s Eu) as (Ek & Hle & Sk). assert (HK : (4 <= st_lgK s <= 21)%N) by (rewrite Ek; eapply union_range; eauto).
  destruct (hll_composite_estimate flog (st_lgK s) t s (all_items os) HL HK Sk Ha) as (e & E1 & E2 & E3 & _). exists e. split; auto. split; auto.
  pose proof (proj2 (hll_sketch_exact f_zero hip_f coupon_est (compF flog) (st_lgK s) t' xs HK) s1 Ef) as Sk1.
  assert (Ha1 : in_array (st_lgK s) xs) by (unfold in_array in *; rewrite (distinct_same_set _ _ Hx); auto).
  destruct (hll_composite_estimate flog (st_lgK s) t' s1 xs HL HK Sk1 Ha1) as (e1 & F1 & F2 & F3 & _). rewrite F1. rewrite <- F3, <- E3. unfold sum_pow, empty_slots.
  assert (Er2 : forall i, reg (st_lgK s) xs i = reg (st_lgK s) (all_items os) i) by (intros; apply reg_same_set; auto). f_equal; [f_equal; f_equal; apply map_ext; intros; rewrite Er2; auto|f_equal; apply filter_ext; intros; rewrite Er2; auto].
Qed.
(** Out of order, the estimate is the composite one but the lower bound is still raised to the number of occupied slots. The result of the union of two copies of a sketch whose
    10 of 16 slots hold rank 1 has its lower bound, 10, above its estimate. *)
Definition ten := row 0 10 1.
Definition inverted (flog : f64 -> f64) (s : hstate f64) : bool :=
  match q_estimate flog s, q_lower flog s 1 with Some e, Some lo => flt e lo && feq lo (int64f 10) | _, _ => false end.
Definition inverted_run (flog : f64 -> f64) : bool :=
  match un_new 4 with None => false | Some u0 =>
  match urunF u0 [USketch 4 T8 ten; USketch 4 T8 ten] with None => false | Some u =>
  match un_result f_zero hip_f u T8 with None => false | Some (_, s) => inverted flog s end end end.
Lemma inverted_run_ok flog : inverted_run flog = true.
Proof. vm_compute. reflexivity. Qed.
Theorem hll_union_lower_above_estimate_refuted : exists u0 u u' s, un_new 4 = Some u0 /\ urunF u0 [USketch 4 T8 ten; USketch 4 T8 ten] = Some u /\ un_result f_zero hip_f u T8 = Some (u', s) /\
  forall flog, exists e lo, q_estimate flog s = Some e /\ q_lower flog s 1 = Some lo /\ flt e lo = true /\ feq lo (int64f 10) = true.
Proof.
  pose proof inverted_run_ok as H. unfold inverted_run in H. set (os := [USketch 4 T8 ten; USketch 4 T8 ten]) in *. clearbody os.
  destruct (un_new (F := f64) 4) as [u0|]; [|discriminate (H (fun x => x))]. destruct (urunF u0 os) as [u|] eqn:E1; [|discriminate (H (fun x => x))].
  destruct (un_result f_zero hip_f u T8) as [(u', s)|] eqn:E2; [|discriminate (H (fun x => x))]. exists u0, u, u', s. split; auto. split; auto. split; auto.
  intros flog. specialize (H flog). unfold inverted in H. destruct (q_estimate flog s) as [e|]; [|discriminate]. destruct (q_lower flog s 1) as [lo|]; [|discriminate].
  apply andb_prop in H. destruct H as [H1 H2]. exists e, lo. auto.
Qed.

(** ** Non-vacuity *)
(** A correctly rounded logarithm meets [log_ok] *)
Lemma rounded_log_ok flog : (forall x, finite x -> 1 <= real x <= bpow radix2 53 -> finite (flog x) /\ real (flog x) = rnd (ln (real x))) -> log_ok flog.
Proof.
  intros H. assert (L : forall x, 1 <= x -> 0 <= ln x <= x).
  { intros x Hx. split; [destruct (Rle_lt_or_eq_dec _ _ Hx) as [Hl|He]; [left; rewrite <- ln_1; apply ln_increasing; lra|rewrite <- He, ln_1; lra]|].
    destruct (Rle_or_lt (ln x) x) as [|C]; auto. exfalso. apply exp_increasing in C. rewrite exp_ln in C by lra. pose proof (exp_ineq1_le x). lra. }
  split.
  - intros x F B. destruct (H x F B) as (F1 & V1). split; auto. unfold real in V1. rewrite V1. specialize (L (B2R x) (proj1 B)). split; [apply rnd_ge; [apply fmt_0|lra]|apply rnd_le_gen; [apply fmt_B|lra]].
  - assert (F2 : finite f_2) by reflexivity. assert (V2 : real f_2 = 2) by (apply f2_val).
    destruct (H f_2 F2) as (F1 & V1); [rewrite V2; split; [lra|]; apply (bpow_le radix2 1 53); lia|]. unfold real in V1. rewrite V1. change (B2R f_2) with (real f_2). rewrite V2.
    assert (B : / 2 <= ln 2 <= 1).
    { split.
      - destruct (Rle_or_lt (/ 2) (ln 2)) as [|C]; auto. exfalso. apply exp_increasing in C. rewrite exp_ln in C by lra. assert (E : exp (/ 2) * exp (/ 2) = exp 1) by (rewrite <- exp_plus; f_equal; lra). pose proof exp_le_3. assert (2 * 2 < exp (/ 2) * exp (/ 2)) by (apply Rmult_le_0_lt_compat; lra). lra.
      - destruct (Rle_or_lt (ln 2) 1) as [|C]; auto. exfalso. apply exp_increasing in C. rewrite exp_ln in C by lra. pose proof (exp_ineq1 1 ltac:(lra)). lra. }
    split; [apply rnd_ge; [|apply B]|apply rnd_le_gen; [|apply B]].
    + change (/ 2) with (bpow radix2 (-1)). apply fmt_bpow. lia.
    + change 1 with (bpow radix2 0). apply fmt_bpow. lia.
Qed.
Lemma const_log_ok : log_ok (fun _ => f_lit 3 (-2)).
Proof.
  assert (V : B2R (f_lit 3 (-2)) = 3 / 4). { destruct (lit_spec 3 (-2)) as (_ & V); [lia|lia|]. rewrite V. change (bpow radix2 (-2)) with (/ 4). lra. }
  split; [|rewrite V; lra]. intros x _ H. split; [reflexivity|]. rewrite V. lra.
Qed.
Definition fedb (lgK : N) (t : tgt) (xs : list item) : bool := match feedF lgK t xs with Some (HArr _ _) => true | _ => false end.
Example ex_array : in_array 4 ten /\ (forall t, exists s, feedF 4 t ten = Some s) /\ seen 4 ten 10 /\ Forall (fun x => (rank_of x < 32)%N) ten.
Proof.
  assert (A : in_array 4 ten) by (split; [vm_compute; lia|left; reflexivity]). split; auto.
  split; [intros t; destruct (feedF 4 t ten) as [s|] eqn:E; [eauto|]; assert (X : fedb 4 t ten = true) by (destruct t; vm_compute; reflexivity); unfold fedb in X; rewrite E in X; discriminate|].
  split; [left; split; auto; vm_compute; reflexivity|]. repeat constructor.
Qed.
Example ex_list : ~ in_array 12 ten /\ seen 12 ten 10 /\ match feedF 12 T8 ten with Some (HSet _ _ _ _ 10) => True | _ => False end.
Proof.
  assert (A : ~ in_array 12 ten) by (intros (_ & [H|H]); [discriminate|apply Nat.ltb_lt in H; vm_compute in H; discriminate]). split; auto. split; [right; split; auto; vm_compute; reflexivity|]. vm_compute. exact I.
Qed.
Example ex_union : exists u0, un_new 4 = Some u0 /\ compatibleF u0 [USketch 4 T8 ten; USketch 4 T8 ten] /\ in_array 4 (all_items [USketch 4 T8 ten; USketch 4 T8 ten]).
Proof.
  destruct (un_new (F := f64) 4) as [u0|] eqn:E; [|discriminate]. exists u0. split; auto. split; [|split; [vm_compute; lia|left; reflexivity]].
  destruct (new_uinv f_zero hip_f coupon_est 4 u0 E) as [Em U0]. eapply (same_k_compatible f_zero hip_f coupon_est 4); eauto; [lia| |].
  - injection E as <-. reflexivity.
  - assert (same_k 4 (USketch 4 T8 ten)). { split; [reflexivity|]. left; discriminate. }
    constructor; auto.
Qed.
Print Assumptions hll_bounds_enclose.
Print Assumptions hll_union_estimate.
Print Assumptions hll_union_lower_above_estimate_refuted.
