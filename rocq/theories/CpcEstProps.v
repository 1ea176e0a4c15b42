(** * C78: the estimates and confidence bounds of CPC sketches, in binary64.

    Specification vocabulary.  A sketch is fed items, each given by its 128-bit hash; [coupon lgK h] is the pair (row, column) of a hash
    and [distinct lgK hs] the number of distinct coupons of a history (CpcProps).  A coupon of column c has probability 2^-(c+1) / K;
    [new_prob lgK hs] is the probability that one more item gives a coupon not seen in hs and [hip_value] sums its inverse
    over the items that brought a new coupon (the historic inverse probability estimator).
    [le64] is Go's <= on float64, [finite] excludes NaN and the infinities, [real x] is the real number of a finite float64.
    math.Log and math.Pow are parameters; of them only [log_ok] (log 2 is finite and between 1/2 and 1) and [pow_ok]
    (math.Pow(2, y) is within 1/64 of 2^y for 5 <= y <= 64) are used. *)
From Coq Require Import ZArith Reals Rpower Bool Psatz Permutation.
From Flocq Require Import Core BinarySingleNaN.
From Verif Require Import Base Bytes Arr BitPackModel FloatModel FloatProofs CpcTable CpcTableProofs CpcModel CpcProofs CpcSketch CpcUnion CpcProps HllEstModel HllEstProofs HllEstCoupon HllEstHip HllEstComp CpcEstTables CpcEstModel CpcEstKxp CpcEstHip CpcEstConf CpcEstValue.
From Coq Require Import Rdefinitions.
Local Open Scope R_scope.

Definition finite (x : f64) : Prop := is_finite x = true.
Definition real (x : f64) : R := B2R x.
Definition le64 (x y : f64) : Prop := fle x y = true.
Definition buildF := build cpc_hip.
Definition distinct (lgK : nat) (hs : list (N * N)) : nat := length (nodup N.eq_dec (coupons lgK hs)).
(** Probability of the column of a hash, in a given row *)
Definition col_prob (x : N) : R := (/ 2) ^ (N.to_nat (x mod 64) + 1).
Definition new_prob (lgK : nat) (hs : list (N * N)) : R :=
  1 - fold_right Rplus 0 (map col_prob (nodup N.eq_dec (coupons lgK hs))) / 2 ^ lgK.
(** The history, latest item first *)
Fixpoint hip_value (lgK : nat) (hs : list (N * N)) : R :=
  match hs with
  | [] => 0
  | h :: r => if in_dec N.eq_dec (coupon lgK h) (coupons lgK r) then hip_value lgK r else hip_value lgK r + / new_prob lgK r
  end.
(** The pair table never overflows along the history (as in C45), and no hash begins with [d] zero bits. *)
Definition ordinary (lgK d : nat) (hs : list (N * N)) : Prop :=
  (forall i, (i <= length hs)%nat -> fits lgK (added (firstn i (coupons lgK hs)))) /\ (forall h, In h hs -> (spec_col (snd h) < N.of_nat d)%N).

(** ** Bridges *)
Lemma added_nodup l : Permutation (added l) (nodup N.eq_dec l).
Proof.
  apply NoDup_Permutation; [|apply NoDup_nodup|intros x; rewrite in_added, nodup_In; tauto].
  unfold added. enough (H : forall cs, NoDup cs -> NoDup (fold_left add l cs)) by (apply H; constructor).
  induction l as [|x l IH]; intros cs ND; cbn [fold_left]; auto. apply IH. unfold add. destruct (memb x cs) eqn:M; auto. apply memb_false in M. constructor; auto.
Qed.
Lemma distinct_added lgK hs : length (added (coupons lgK hs)) = distinct lgK hs.
Proof. apply Permutation_length, added_nodup. Qed.
Lemma col_of_coupon lgK h : col_of (coupon lgK h) = N.to_nat (spec_col (snd h)).
Proof. rewrite col_mod. unfold coupon. f_equal. assert (spec_col (snd h) < 64)%N by (unfold spec_col; lia). rewrite N.add_comm, N.mul_comm, N.mod_add, N.mod_small by lia. reflexivity. Qed.
Lemma below_added lgK d hs : (forall h, In h hs -> (spec_col (snd h) < N.of_nat d)%N) -> cols_below d (added (coupons lgK hs)).
Proof. intros H x Hx. apply (proj1 (in_added _ _)) in Hx. apply in_map_iff in Hx. destruct Hx as (h & <- & Hh). rewrite col_of_coupon. specialize (H h Hh). lia. Qed.
Lemma coupons_ok lgK hs : okc lgK (added (coupons lgK hs)).
Proof. apply added_ok. intros x Hx. apply in_map_iff in Hx. destruct Hx as (h & <- & _). apply coupon_lt. Qed.
Lemma added_snoc l x : added (l ++ [x]) = add (added l) x.
Proof. unfold added. rewrite fold_left_app. reflexivity. Qed.
Lemma coupons_snoc lgK hs h : coupons lgK (hs ++ [h]) = coupons lgK hs ++ [coupon lgK h].
Proof. unfold coupons. rewrite map_app. reflexivity. Qed.
Lemma colw_prob x : IZR (colw x) = bpow radix2 64 * col_prob x.
Proof.
  pose proof (colw_bpow x) as C. assert (P : col_prob x = bpow radix2 (- (Z.of_nat (col_of x) + 1))).
  { unfold col_prob. rewrite bpow_opp. replace (Z.of_nat (col_of x) + 1)%Z with (Z.of_nat (N.to_nat (x mod 64) + 1)) by (rewrite col_mod; lia). rewrite pow_inv. f_equal.
    rewrite <- (IZR_Zpower radix2) by lia. change (Zpower radix2) with (Z.pow 2). rewrite pow_IZR. reflexivity. }
  rewrite P, <- C. rewrite (Rmult_comm (IZR (colw x))), <- Rmult_assoc, <- bpow_plus. change (bpow radix2 (64 + -64)) with 1. lra.
Qed.
Lemma fold_Rplus_perm a b : Permutation a b -> fold_right Rplus 0 a = fold_right Rplus 0 b.
Proof. induction 1; cbn [fold_right]; lra. Qed.
Lemma left_prob lgK hs : IZR (left64 lgK (added (coupons lgK hs))) = bpow radix2 (Z.of_nat lgK + 64) * new_prob lgK hs.
Proof.
  unfold left64, new_prob. rewrite minus_IZR. replace (IZR (2 ^ (Z.of_nat lgK + 64))) with (bpow radix2 (Z.of_nat lgK + 64)) by (rewrite <- (IZR_Zpower radix2); [auto|lia]).
  assert (S : forall l, IZR (zsum (map colw l)) = bpow radix2 64 * fold_right Rplus 0 (map col_prob l)).
  { induction l as [|x l IH]; cbn [map fold_right]; [change (zsum []) with 0%Z; lra|]. rewrite zsum_cons, plus_IZR, IH, colw_prob. lra. }
  rewrite S, (fold_Rplus_perm _ _ (Permutation_map col_prob (added_nodup (coupons lgK hs)))).
  assert (P : 2 ^ lgK = bpow radix2 (Z.of_nat lgK)) by (rewrite <- K_bpow, <- pow_IZR; reflexivity). rewrite P, bpow_plus. pose proof (bpow_gt_0 radix2 (Z.of_nat lgK)). field. lra.
Qed.
Lemma hip_value_R lgK d : (d <= 64)%nat -> forall hs, (forall h, In h hs -> (spec_col (snd h) < N.of_nat d)%N) -> hipR lgK (added (coupons lgK hs)) = hip_value lgK (rev hs) /\ 0 < new_prob lgK hs.
Proof.
  intros Hd hs H. assert (NP : forall hs, (forall h, In h hs -> (spec_col (snd h) < N.of_nat d)%N) -> 0 < new_prob lgK hs).
  { clear. intros hs H. destruct (Nat.leb_spec d 64) as [Hd|Hd].
    - destruct (left_lower lgK _ d (coupons_ok lgK hs) (below_added lgK d hs H) Hd) as (L & _). pose proof (Z.pow_pos_nonneg 2 (Z.of_nat lgK + 64 - Z.of_nat d) ltac:(lia) ltac:(lia)) as P.
      assert (Q : 0 < IZR (left64 lgK (added (coupons lgK hs)))) by (apply IZR_lt; lia). rewrite left_prob in Q. pose proof (bpow_gt_0 radix2 (Z.of_nat lgK + 64)). apply Rmult_lt_reg_l with (bpow radix2 (Z.of_nat lgK + 64)); lra.
    - destruct (left_lower lgK _ 64 (coupons_ok lgK hs)) as (L & _); [intros x _; apply col_lt|lia|]. pose proof (Z.pow_pos_nonneg 2 (Z.of_nat lgK + 64 - Z.of_nat 64) ltac:(lia) ltac:(lia)) as P.
      assert (Q : 0 < IZR (left64 lgK (added (coupons lgK hs)))) by (apply IZR_lt; lia). rewrite left_prob in Q. pose proof (bpow_gt_0 radix2 (Z.of_nat lgK + 64)). apply Rmult_lt_reg_l with (bpow radix2 (Z.of_nat lgK + 64)); lra. }
  split; [|apply NP; auto]. induction hs as [|h hs IH] using rev_ind; [reflexivity|].
  assert (H' : forall x, In x hs -> (spec_col (snd x) < N.of_nat d)%N) by (intros; apply H, in_or_app; auto). specialize (IH H'). rewrite rev_app_distr. cbn [rev app hip_value]. rewrite coupons_snoc, added_snoc. unfold add.
  assert (PR : Permutation (coupons lgK (rev hs)) (coupons lgK hs)) by (apply Permutation_map; symmetry; apply Permutation_rev).
  assert (NR : new_prob lgK (rev hs) = new_prob lgK hs).
  { unfold new_prob. do 2 f_equal. apply fold_Rplus_perm, Permutation_map. apply NoDup_Permutation; try apply NoDup_nodup. intros x. rewrite !nodup_In. split; apply Permutation_in; [auto|symmetry; auto]. }
  destruct (in_dec N.eq_dec (coupon lgK h) (coupons lgK (rev hs))) as [I|I].
  - replace (memb (coupon lgK h) (added (coupons lgK hs))) with true; auto. symmetry. apply memb_in, in_added. eapply Permutation_in; eauto.
  - replace (memb (coupon lgK h) (added (coupons lgK hs))) with false.
    + cbn [hipR]. rewrite IH, left_prob, NR. f_equal. pose proof (NP hs H'). pose proof (bpow_gt_0 radix2 (Z.of_nat lgK + 64)). field. lra.
    + symmetry. apply memb_false. rewrite in_added. intros Q. apply I. eapply Permutation_in; [symmetry; eauto|auto].
Qed.
(** Feeding keeps the accumulators *)
Lemma feed_acc d : (d <= 47)%nat -> forall hs (s : cpc (f64 * f64)) cs, inv s cs -> (c_lgK s + d <= 53)%nat ->
  (forall i, (i <= length hs)%nat -> fits (c_lgK s) (fold_left add (firstn i (coupons (c_lgK s) hs)) cs)) -> cols_below d (fold_left add (coupons (c_lgK s) hs) cs) -> acc_ok (c_lgK s) d (c_hip s) cs ->
  exists s', feed cpc_hip s hs = Ok s' /\ inv s' (fold_left add (coupons (c_lgK s) hs) cs) /\ same_params s s' /\ acc_ok (c_lgK s) d (c_hip s') (fold_left add (coupons (c_lgK s) hs) cs) /\ B2R (snd (c_hip s)) <= B2R (snd (c_hip s')).
Proof.
  intros Hd. induction hs as [|[h0 h1] hs IH]; intros s cs I HS FI CB AO; cbn [feed coupons map fold_left].
  - exists s. split; auto. split; auto. split; [unfold same_params; auto|]. split; auto. lra.
  - cbn [fst snd]. rewrite (hash_update_eq cpc_hip s cs) by auto. set (x := coupon (c_lgK s) (h0, h1)) in *. assert (Hx : (x < 2 ^ N.of_nat (6 + c_lgK s))%N) by apply coupon_lt.
    cbn [coupons map fold_left] in CB. fold x in CB. fold (coupons (c_lgK s) hs) in *. assert (AD : add cs x = if memb x cs then cs else x :: cs) by reflexivity. rewrite AD in CB. rewrite ?AD.
    destruct (memb x cs) eqn:M.
    + apply memb_in in M. rewrite (update_old cpc_hip s cs x I Hx M). cbn [bindr]. apply IH; auto.
      intros i Hi. specialize (FI (S i) ltac:(cbn [length]; lia)). cbn [coupons map firstn fold_left] in FI. fold x in FI. fold (coupons (c_lgK s) hs) in FI. rewrite AD in FI. exact FI.
    + pose proof M as M'. apply memb_false in M'.
      assert (F1 : fits (c_lgK s) (x :: cs)). { specialize (FI 1%nat ltac:(cbn [length]; lia)). cbn [coupons map firstn fold_left] in FI. fold x in FI. rewrite AD in FI. exact FI. }
      destruct (update_new cpc_hip s cs x I Hx M' F1) as (s1 & E1 & I1 & SP & HA). rewrite E1. cbn [bindr]. pose proof SP as (S1 & S2 & S3).
      assert (OK : okc (c_lgK s) (x :: cs)) by (rewrite <- S2; apply (i_cs _ _ I1)).
      assert (CB1 : cols_below d (x :: cs)). { intros y Hy. apply CB. apply added_in. right. auto. }
      destruct (acc_step d s s1 x cs I OK CB1 Hd HS AO HA) as (AO1 & MO).
      assert (FI1 : forall i, (i <= length hs)%nat -> fits (c_lgK s) (fold_left add (firstn i (coupons (c_lgK s) hs)) (x :: cs))).
      { intros i Hi. specialize (FI (S i) ltac:(cbn [length]; lia)). cbn [coupons map firstn fold_left] in FI. fold x in FI. fold (coupons (c_lgK s) hs) in FI. rewrite AD in FI. exact FI. }
      clearbody x. rewrite <- S2 in *. destruct (IH s1 (x :: cs) I1 HS) as (s2 & E2 & I2 & (T1 & T2 & T3) & AO2 & MO2); auto.
      exists s2. split; auto. split; auto. split; [repeat split; congruence|]. split; auto. lra.
Qed.
Lemma build_acc lgK seed hs d : (4 <= lgK <= 26)%nat -> (d <= 47)%nat -> (lgK + d <= 53)%nat -> ordinary lgK d hs ->
  exists s, buildF lgK seed hs = Ok s /\ inv s (added (coupons lgK hs)) /\ c_lgK s = lgK /\ c_merged s = false /\ acc_ok lgK d (c_hip s) (added (coupons lgK hs)) /\ c_seed s = seed.
Proof.
  intros LG Hd HS (FI & HC). unfold buildF, build. assert (NEW : new_cpc (f64 * f64) cpc_hip lgK seed = Ok (mkCpc seed lgK 0 false 0 0 None None (f_k lgK, f_zero))).
  { unfold new_cpc. replace ((lgK <? 4)%nat || (26 <? lgK)%nat) with false by (symmetry; apply orb_false_iff; split; apply Nat.ltb_ge; lia). reflexivity. }
  rewrite NEW. cbn [bindr]. destruct (new_inv cpc_hip _ _ _ NEW) as (If & _). set (f := mkCpc _ _ _ _ _ _ _ _ _) in *.
  destruct (feed_acc d Hd hs f [] If HS FI (below_added lgK d hs HC)) as (s & E & I & (S1 & S2 & S3) & AO & _).
  - split; [apply kxp_init; cbn [c_lgK f]; lia|apply hacc_init].
  - exists s. split; auto.
Qed.
Lemma ordinary_app lgK d hs hs' : ordinary lgK d (hs ++ hs') -> ordinary lgK d hs.
Proof.
  intros (FI & HC). split; [|intros h Hh; apply HC, in_or_app; auto]. intros i Hi. specialize (FI i ltac:(rewrite app_length; lia)). unfold coupons in *. rewrite map_app, firstn_app, map_length in FI.
  replace (i - length hs)%nat with 0%nat in FI by lia. cbn [firstn] in FI. rewrite app_nil_r in FI. exact FI.
Qed.
Lemma small_hip lgK d h cs : (lgK <= 26)%nat -> okc lgK cs -> hacc_ok lgK d h cs -> IZR (Z.of_nat (length cs)) <= B2R h <= bpow radix2 300 /\ (Z.of_nat (length cs) <= 2 ^ 32)%Z.
Proof.
  intros HK OK (F & B & _). pose proof (okc_length lgK cs HK OK) as L. split; auto. split; [apply B|]. eapply Rle_trans; [apply B|]. apply Rle_trans with (bpow radix2 32 * bpow radix2 63).
  - apply Rmult_le_compat_r; [apply bpow_ge_0|]. change (bpow radix2 32) with (IZR (2 ^ 32)). apply IZR_le. auto.
  - rewrite <- bpow_plus. apply bpow_le. lia.
Qed.

Lemma small_ordinary lgK d hs : (2 * length hs <= room (6 + lgK))%nat -> forallb (fun h => (spec_col (snd h) <? N.of_nat d)%N) hs = true -> ordinary lgK d hs.
Proof.
  intros H C. split.
  - intros i Hi. apply small_fits. pose proof (added_length_le (firstn i (coupons lgK hs))) as Q. unfold coupons in *. rewrite firstn_length, map_length in Q. lia.
  - intros h Hh. rewrite forallb_forall in C. apply N.ltb_lt, C, Hh.
Qed.

(** ** Theorems *)

(** The estimate of a sketch that was only updated is finite, at least the number of distinct coupons, and the HIP value of the history
    up to the stated relative error (below 2^-2 for every admitted d, and 2^-20 for d = 29 and n = 2^31). *)
Theorem cpc_hip_estimate fpow lgK seed d hs : (4 <= lgK <= 26)%nat -> (d <= 47)%nat -> (lgK + d <= 53)%nat -> ordinary lgK d hs ->
  exists s e, buildF lgK seed hs = Ok s /\ cpc_estimate fpow s = Some e /\ finite e /\ INR (distinct lgK hs) <= real e /\
    Rabs (real e - hip_value lgK (rev hs)) <= (/ 2 ^ (50 - d) + (INR (distinct lgK hs) + 1) / 2 ^ 52) * hip_value lgK (rev hs).
Proof.
  intros LG Hd HS O. destruct (build_acc lgK seed hs d LG Hd HS O) as (s & E & I & L & M & (_ & HO) & _). exists s, (snd (c_hip s)). split; auto. unfold cpc_estimate. rewrite M. split; auto.
  destruct HO as (F & B & X). rewrite distinct_added in B. unfold hipE in X. rewrite distinct_added in X. destruct (hip_value_R lgK d ltac:(lia) hs (proj2 O)) as (HV & _). rewrite HV in X.
  split; [exact F|]. rewrite INR_IZR_INZ. split; [apply B|]. unfold real.
  replace (/ 2 ^ (50 - d)) with (bpow radix2 (Z.of_nat d - 50)).
  - replace ((IZR (Z.of_nat (distinct lgK hs)) + 1) / 2 ^ 52) with (IZR (Z.of_nat (distinct lgK hs) + 1) * bpow radix2 (-52)); [exact X|]. rewrite plus_IZR. unfold Rdiv. f_equal. rewrite (pow_IZR 2 52). reflexivity.
  - replace (Z.of_nat d - 50)%Z with (- Z.of_nat (50 - d))%Z by lia. rewrite bpow_opp, <- K_bpow, <- pow_IZR. reflexivity.
Qed.

(** Further updates never lower it. *)
Theorem cpc_estimate_grows fpow lgK seed d hs hs' s s' e e' : (4 <= lgK <= 26)%nat -> (d <= 47)%nat -> (lgK + d <= 53)%nat -> ordinary lgK d (hs ++ hs') ->
  buildF lgK seed hs = Ok s -> buildF lgK seed (hs ++ hs') = Ok s' -> cpc_estimate fpow s = Some e -> cpc_estimate fpow s' = Some e' -> le64 e e'.
Proof.
  intros LG Hd HS O E E'. pose proof (ordinary_app _ _ _ _ O) as O1. destruct (build_acc lgK seed hs d LG Hd HS O1) as (s0 & E0 & I & L & M & AO & _). rewrite E in E0. injection E0 as <-.
  destruct (build_acc lgK seed (hs ++ hs') d LG Hd HS O) as (s0 & E0 & I' & L' & M' & AO' & _). rewrite E' in E0. injection E0 as <-. unfold cpc_estimate. rewrite M, M'. intros X Y.
  assert (FE : feed cpc_hip s hs' = Ok s').
  { unfold buildF, build in *. destruct (new_cpc (f64 * f64) cpc_hip lgK seed) as [f| |]; cbn [bindr] in *; try discriminate. clear - E E'. revert f E E'. induction hs as [|h hs IH]; intros f E E'; cbn [feed app] in *; [congruence|].
    destruct (hash_update _ _ f (fst h) (snd h)) as [f1| |]; cbn [bindr] in *; try discriminate. eauto. }
  assert (CA : fold_left add (coupons lgK hs') (added (coupons lgK hs)) = added (coupons lgK (hs ++ hs'))) by (unfold added, coupons; rewrite map_app, fold_left_app; reflexivity).
  rewrite <- L in CA, AO, HS. destruct (feed_acc d Hd hs' s _ I HS) as (s2 & E2 & _ & _ & _ & MO).
  - intros i Hi. destruct O as (FI & _). specialize (FI (length hs + i)%nat ltac:(rewrite app_length; lia)). rewrite L. unfold coupons, added in *. rewrite map_app, firstn_app, map_length, firstn_all2 in FI by (rewrite map_length; lia).
    replace (length hs + i - length hs)%nat with i in FI by lia. rewrite fold_left_app in FI. exact FI.
  - rewrite L in *. rewrite CA. apply below_added. apply O.
  - rewrite L in *. exact AO.
  - rewrite FE in E2. injection E2 as <-. assert (X' : snd (c_hip s) = e) by congruence. assert (Y' : snd (c_hip s') = e') by congruence. rewrite <- X', <- Y'.
    apply fle_spec; auto; [apply AO|apply AO'].
Qed.

(** The bounds enclose the estimate, the lower one is at least the number of distinct coupons and the upper one a whole number. *)
Theorem cpc_bounds_enclose flog fpow lgK seed d hs kappa : log_ok flog -> (4 <= lgK <= 26)%nat -> (d <= 47)%nat -> (lgK + d <= 53)%nat -> ordinary lgK d hs -> (1 <= kappa <= 3)%Z ->
  exists s lo e up, buildF lgK seed hs = Ok s /\ cpc_lower flog fpow s kappa = Some lo /\ cpc_estimate fpow s = Some e /\ cpc_upper flog fpow s kappa = Some up /\
    finite lo /\ finite e /\ finite up /\ INR (distinct lgK hs) <= real lo /\ le64 lo e /\ le64 e up /\ exists z, real up = IZR z.
Proof.
  intros HL LG Hd HS O Hk. destruct (build_acc lgK seed hs d LG Hd HS O) as (s & E & I & L & M & (_ & HO) & _). pose proof (i_cs _ _ I) as OK. rewrite L in OK. destruct (small_hip lgK d _ _ ltac:(lia) OK HO) as (B & LN). pose proof (i_n _ _ I) as Nn.
  rewrite distinct_added in B, LN, Nn. exists s. unfold cpc_lower, cpc_upper, cpc_estimate. rewrite M, L, Nn.
  destruct (conf_ok flog HL false lgK (Z.of_nat (distinct lgK hs)) (snd (c_hip s)) kappa LG Hk ltac:(lia) (proj1 HO) B) as (lo & up & E1 & E2 & F1 & F2 & B1 & B2 & B3 & W).
  - intros Z0. destruct HO as (_ & Q & _). rewrite distinct_added, Z0 in Q. lra.
  - exists lo, (snd (c_hip s)), up. split; auto. split; auto. split; auto. split; auto. split; auto. split; [apply HO|]. split; auto. split; [rewrite INR_IZR_INZ; auto|]. destruct HO as (Fe & _).
    split; [apply fle_spec; auto|]. split; [apply fle_spec; auto|auto].
Qed.
(** ... and widen with kappa. *)
Theorem cpc_bounds_widen flog fpow lgK seed d hs s k1 k2 lo1 up1 lo2 up2 : log_ok flog -> (4 <= lgK <= 26)%nat -> (d <= 47)%nat -> (lgK + d <= 53)%nat -> ordinary lgK d hs ->
  (1 <= k1)%Z -> (k1 <= k2)%Z -> (k2 <= 3)%Z -> buildF lgK seed hs = Ok s ->
  cpc_lower flog fpow s k1 = Some lo1 -> cpc_upper flog fpow s k1 = Some up1 -> cpc_lower flog fpow s k2 = Some lo2 -> cpc_upper flog fpow s k2 = Some up2 -> real lo2 <= real lo1 /\ real up1 <= real up2.
Proof.
  intros HL LG Hd HS O H1 H12 H2 E. destruct (build_acc lgK seed hs d LG Hd HS O) as (s0 & E0 & I & L & M & (_ & HO) & _). rewrite E in E0. injection E0 as <-. pose proof (i_cs _ _ I) as OK. rewrite L in OK. destruct (small_hip lgK d _ _ ltac:(lia) OK HO) as (B & LN). pose proof (i_n _ _ I) as Nn.
  rewrite <- Nn in B, LN. unfold cpc_lower, cpc_upper. rewrite M, L. intros A1 A2 A3 A4. eapply (conf_widen flog HL false lgK _ (snd (c_hip s))); eauto; [lia|apply HO].
Qed.

(** Their values, up to rounding: with eps = kappa * x / sqrt K, where x is the entry of the table of error constants (lgK <= 14) or
    sqrt (log 2 / 2) for updated sketches and log 2 for results of unions, they are max (n, estimate / (1 + eps)) and the
    estimate / (1 - eps), rounded up. *)
Definition bound_const (flog : f64 -> f64) (merged : bool) (lgK : nat) (kappa : Z) : R :=
  if (lgK <=? 14)%nat then IZR (nth (3 * (lgK - 4) + (Z.to_nat kappa - 1)) (if merged then icon_high else hip_high) 0%Z) / 10000
  else if merged then real (flog f_2) else sqrt (real (flog f_2) / 2).
Definition bound_eps flog merged lgK kappa : R := IZR kappa * (bound_const flog merged lgK kappa / sqrt (2 ^ lgK)).
Definition bounds_are (eps n e lo up : R) : Prop :=
  0 <= eps < 1 /\ Rabs (lo - Rmax n (e / (1 + eps))) <= e / 2 ^ 40 /\ Rabs (up - e / (1 - eps)) <= 1 + e / (1 - eps) / 2 ^ 40.
Lemma conf_bounds_are flog icon lgK n e kappa lo up : log_ok flog -> (4 <= lgK <= 26)%nat -> (1 <= kappa <= 3)%Z -> (1 <= n <= 2 ^ 53)%Z -> is_finite e = true -> IZR n <= B2R e <= bpow radix2 300 ->
  conf_lower flog icon lgK n (Some e) kappa = Some lo -> conf_upper flog icon lgK n (Some e) kappa = Some up -> bounds_are (bound_eps flog icon lgK kappa) (IZR n) (real e) (real lo) (real up).
Proof.
  intros HL LG Hk Hn Fe Be E1 E2. change (bound_eps flog icon lgK kappa) with (err_eps flog icon lgK kappa). destruct (conf_value flog HL icon lgK n e kappa lo up LG Hk Hn Fe Be E1 E2) as (P1 & L & v & (t & Ht & Ev) & U).
  destruct (eps_close flog HL icon lgK kappa LG Hk) as (_ & _ & _ & _ & _ & P0). split; [lra|]. split; [exact L|]. unfold real. rewrite U. set (E := B2R e / (1 - err_eps flog icon lgK kappa)) in *.
  assert (N1 : 1 <= IZR n) by (apply IZR_le; lia). assert (PE : 0 <= E) by (apply Rmult_le_pos; [lra|apply Rlt_le, Rinv_0_lt_compat; lra]).
  pose proof (Zceil_ub v) as Z1. pose proof (Zceil_lb v) as Z2. assert (D : Rabs (v - E) <= E / 2 ^ 40). { rewrite Ev. replace (E * (1 + t) - E) with (E * t) by ring. rewrite Rabs_mult, (Rabs_pos_eq E) by lra. apply Rmult_le_compat_l; auto. }
  apply Rabs_le_inv in D. apply Rabs_le. lra.
Qed.
Theorem cpc_bounds_value flog fpow lgK seed d hs kappa s lo e up : log_ok flog -> (4 <= lgK <= 26)%nat -> (d <= 47)%nat -> (lgK + d <= 53)%nat -> ordinary lgK d hs -> hs <> [] -> (1 <= kappa <= 3)%Z ->
  buildF lgK seed hs = Ok s -> cpc_lower flog fpow s kappa = Some lo -> cpc_estimate fpow s = Some e -> cpc_upper flog fpow s kappa = Some up ->
  bounds_are (bound_eps flog false lgK kappa) (INR (distinct lgK hs)) (real e) (real lo) (real up).
Proof.
  intros HL LG Hd HS O NE Hk E. destruct (build_acc lgK seed hs d LG Hd HS O) as (s0 & E0 & I & L & M & (_ & HO) & _). rewrite E in E0. injection E0 as <-. pose proof (i_cs _ _ I) as OK. rewrite L in OK. destruct (small_hip lgK d _ _ ltac:(lia) OK HO) as (B & LN). pose proof (i_n _ _ I) as Nn.
  rewrite distinct_added in B, LN, Nn. unfold cpc_lower, cpc_upper, cpc_estimate. rewrite M, L, Nn. intros A1 A2 A3. assert (EQ : snd (c_hip s) = e) by congruence. rewrite EQ in *. rewrite INR_IZR_INZ.
  assert (D1 : (1 <= distinct lgK hs)%nat). { unfold distinct. destruct hs as [|h r]; [congruence|]. assert (Hin : In (coupon lgK h) (nodup N.eq_dec (coupons lgK (h :: r)))) by (apply nodup_In; left; reflexivity). destruct (nodup N.eq_dec (coupons lgK (h :: r))); [destruct Hin|cbn [length]; lia]. }
  apply (conf_bounds_are flog false lgK (Z.of_nat (distinct lgK hs)) e kappa); auto; [lia|apply HO].
Qed.

(** ** Unions: the ICON estimator *)
Lemma min_lg_ge l : forall lg, (4 <= lg)%nat -> Forall (fun p => inv (fst p) (snd p)) l -> (4 <= min_lg (F := f64 * f64) lg l)%nat.
Proof.
  induction l as [|[s [|x cs]] l IH]; intros lg H FA; cbn [min_lg]; auto; inversion FA as [|? ? I FA']; subst; apply IH; auto. pose proof (i_lg _ _ I) as G. cbn [fst] in G. lia.
Qed.
(** The answers of a union's result: finite and ordered, for any inputs the union accepts. *)
Theorem cpc_union_bounds flog fpow lgK seed (l : sources (F := f64 * f64)) kappa : log_ok flog -> pow_ok fpow -> (4 <= lgK <= 26)%nat -> good_sources seed l ->
  (2 * length (all_coupons l) <= room (6 + min_lg lgK l))%nat -> (1 <= kappa <= 3)%Z ->
  exists u0 u s lo e up, new_union _ cpc_hip lgK seed = Ok u0 /\ union_all cpc_hip u0 (map fst l) = Ok u /\ get_result _ cpc_hip u = Ok s /\
    cpc_lower flog fpow s kappa = Some lo /\ cpc_estimate fpow s = Some e /\ cpc_upper flog fpow s kappa = Some up /\
    finite lo /\ finite e /\ finite up /\ INR (c_n s) <= real lo /\ le64 lo e /\ le64 e up /\ (exists z, real up = IZR z) /\ ((c_n s <= 1)%nat -> real e = INR (c_n s)) /\
    ((1 <= c_n s)%nat -> bounds_are (bound_eps flog true (min_lg lgK l) kappa) (INR (c_n s)) (real e) (real lo) (real up)).
Proof.
  intros HL HP LG G FS Hk. destruct (cpc_union_result cpc_hip lgK seed l LG G FS) as (u0 & u & s & E1 & E2 & E3 & L & S & M & R). exists u0, u, s.
  assert (LB : (4 <= min_lg lgK l <= 26)%nat). { pose proof (min_lg_le l lgK). split; [|lia]. apply min_lg_ge; [lia|]. eapply Forall_impl; [|exact G]. intros p Hp. apply Hp. }
  assert (NB : (Z.of_nat (c_n s) <= 64 * 2 ^ Z.of_nat (min_lg lgK l))%Z).
  { destruct R as (m & _ & _ & _ & _ & (cs & ND & In' & Nn) & _). rewrite Nn. assert (I : incl (map N.to_nat cs) (seq 0 (64 * 2 ^ min_lg lgK l))).
    { intros y Hy. apply in_map_iff in Hy. destruct Hy as (x & <- & Hx). apply In' in Hx. destruct Hx as (_ & _ & x0 & _ & _ & _ & Hr). apply in_seq. split; [lia|].
      assert (x / 64 < 2 ^ N.of_nat (min_lg lgK l))%N by (rewrite Hr; apply N.mod_lt; apply N.pow_nonzero; lia). rewrite <- pow_N in H. lia. }
    assert (ND' : NoDup (map N.to_nat cs)) by (apply FinFun.Injective_map_NoDup; auto; intros a b; apply N2Nat.inj).
    pose proof (NoDup_incl_length ND' I) as Q. rewrite map_length, seq_length in Q. apply Nat2Z.inj_le in Q. rewrite Nat2Z.inj_mul, K_Z in Q. lia. }
  destruct (icon_ok fpow (min_lg lgK l) (Z.of_nat (c_n s)) HP LB ltac:(lia)) as (e & Ee & Fe & Be & Ze).
  assert (PT : (2 ^ Z.of_nat (min_lg lgK l) <= 2 ^ 26)%Z) by (apply Z.pow_le_mono_r; lia).
  destruct (conf_ok flog HL true (min_lg lgK l) (Z.of_nat (c_n s)) e kappa LB Hk ltac:(lia) Fe Be) as (lo & up & A1 & A2 & F1 & F2 & B1 & B2 & B3 & W).
  { intros Z0. rewrite Ze by lia. rewrite Z0. reflexivity. }
  exists lo, e, up. split; auto. split; auto. split; auto. unfold cpc_lower, cpc_upper, cpc_estimate. rewrite M, L, Ee. split; auto. split; auto. split; auto. split; auto. split; auto. split; auto. rewrite INR_IZR_INZ. split; auto.
  split; [apply fle_spec; auto|]. split; [apply fle_spec; auto|]. split; auto. split; [intros Hn; apply Ze; lia|]. intros Hn. apply (conf_bounds_are flog true (min_lg lgK l) (Z.of_nat (c_n s)) e kappa); auto. lia.
Qed.

(** ** Outside the theorems' range: kappa is not checked. *)
Definition rows16 : list (N * N) := grid (seq 0 16) [0%nat].
Definition unchecked (flog : f64 -> f64) : bool :=
  match buildF 4 9001 rows16 with
  | Ok s => match cpc_lower flog (fun _ _ => f_1) s 0, cpc_lower flog (fun _ _ => f_1) s 33, cpc_upper flog (fun _ _ => f_1) s 33 with None, Some lo, Some up => flt up f_zero && fle f_1 lo | _, _, _ => false end
  | _ => false
  end.
(** A sketch with lgK = 4 and sixteen coupons: kappa = 0 panics (index -1), and kappa = 33 reads another row of the table and returns an
    upper bound below zero, under a lower bound of at least one. *)
Theorem cpc_kappa_unchecked_refuted flog fpow : exists s, buildF 4 9001 rows16 = Ok s /\ cpc_lower flog fpow s 0 = None /\
  exists lo up, cpc_lower flog fpow s 33 = Some lo /\ cpc_upper flog fpow s 33 = Some up /\ flt up f_zero = true /\ fle f_1 lo = true.
Proof.
  destruct (build_acc 4 9001 rows16 1) as (s & E & I & L & M & _); try lia.
  { apply small_ordinary; [vm_compute; repeat constructor|vm_compute; reflexivity]. }
  exists s. split; auto. assert (C : unchecked (fun x => x) = true) by (vm_compute; reflexivity). unfold unchecked in C. rewrite E in C.
  unfold cpc_lower, cpc_upper, conf_lower, conf_upper, conf_eps in *. rewrite M, L in *. cbn [Nat.leb] in *.
  destruct (Z.of_nat (c_n s) =? 0)%Z; [discriminate C|]. split; [reflexivity|].
  match type of C with (match ?a with _ => _ end) = _ => destruct a; try discriminate C end.
  match type of C with (match ?a with _ => _ end) = _ => destruct a as [lo|] eqn:A1; try discriminate C end.
  match type of C with (match ?a with _ => _ end) = _ => destruct a as [up|] eqn:A2; try discriminate C end.
  apply andb_true_iff in C. exists lo, up. tauto.
Qed.

(** ** The hypotheses can be met *)
(** A history through all the flavors, the window sliding; and one at the largest lgK. *)
Example ex_ordinary : ordinary 4 4 (grid (seq 0 16) (seq 0 4)) /\ distinct 4 (grid (seq 0 16) (seq 0 4)) = 64%nat /\ ordinary 26 27 (grid (seq 0 8) (seq 5 22)).
Proof.
  split; [apply small_ordinary; [vm_compute; repeat constructor|vm_compute; reflexivity]|]. split; [vm_compute; reflexivity|]. apply small_ordinary; [|vm_compute; reflexivity].
  change (length (grid (seq 0 8) (seq 5 22))) with 176%nat. unfold room. change (Nat.min 26 (6 + 26) - 2)%nat with 24%nat. assert (2 ^ 8 <= 2 ^ 24)%nat by (apply Nat.pow_le_mono_r; lia). change (2 ^ 8)%nat with 256%nat in H. generalize dependent (2 ^ 24)%nat. intros; lia.
Qed.
(** The HIP value of the first two items of distinct rows and column 0, K = 16: 1 + 1/(1 - 1/32). *)
Example ex_hip_value : hip_value 4 (rev (grid [3%nat; 7%nat] [0%nat])) = 1 + 32 / 31.
Proof.
  change (rev (grid [3%nat; 7%nat] [0%nat])) with [(7%N, 9223372036854775808%N); (3%N, 9223372036854775808%N)]. cbn [hip_value].
  destruct (in_dec N.eq_dec (coupon 4 (7%N, 9223372036854775808%N)) (coupons 4 [(3%N, 9223372036854775808%N)])) as [I|_]; [exfalso; vm_compute in I; destruct I as [I|[]]; discriminate I|].
  destruct (in_dec N.eq_dec (coupon 4 (3%N, 9223372036854775808%N)) (coupons 4 [])) as [[]|_].
  unfold new_prob. change (nodup N.eq_dec (coupons 4 [(3%N, 9223372036854775808%N)])) with [192%N]. change (nodup N.eq_dec (coupons 4 [])) with (@nil N). cbn [map fold_right]. unfold col_prob. change (N.to_nat (192 mod 64)) with 0%nat. cbn [Nat.add pow]. field.
Qed.
(** A correctly rounded math.Pow meets [pow_ok], and there is one. *)
Lemma Rpower2_range y : 5 <= y <= 64 -> 32 <= Rpower 2 y <= bpow radix2 64.
Proof.
  intros H. replace 32 with (Rpower 2 (INR 5)) by (rewrite Rpower_pow by lra; cbn [pow]; lra). replace (bpow radix2 64) with (Rpower 2 (INR 64)) by (rewrite Rpower_pow by lra; rewrite pow_IZR; reflexivity).
  rewrite !INR_IZR_INZ. change (Z.of_nat 5) with 5%Z. change (Z.of_nat 64) with 64%Z. split; apply Rle_Rpower; lra.
Qed.
Lemma rounded_pow_ok fpow : (forall y, finite y -> 5 <= real y <= 64 -> finite (fpow f_2 y) /\ real (fpow f_2 y) = rnd (Rpower 2 (real y))) -> pow_ok fpow.
Proof.
  intros H y F B. destruct (H y F B) as (F1 & V1). split; auto. unfold real in V1. rewrite V1. pose proof (Rpower2_range _ B) as P. set (x := Rpower 2 (B2R y)) in *.
  destruct (rnd_rel x) as (eps & He & ->). { rewrite Rabs_pos_eq by lra. apply Rle_trans with (bpow radix2 0); [apply bpow_le; lia|change (bpow radix2 0) with 1; lra]. }
  replace (x * (1 + eps) - x) with (x * eps) by ring. rewrite Rabs_mult, (Rabs_pos_eq x) by lra. unfold Rdiv. apply Rmult_le_compat_l; [lra|]. eapply Rle_trans; [exact He|]. change (/ 64) with (bpow radix2 (-6)). apply bpow_le; lia.
Qed.
Definition rounded_pow (x y : f64) : f64 :=
  let r := rnd (Rpower 2 (B2R y)) in f_lit (Ztrunc (scaled_mantissa radix2 (SpecFloat.fexp 53 1024) r)) (cexp radix2 (SpecFloat.fexp 53 1024) r).
Lemma rounded_pow_spec : pow_ok rounded_pow.
Proof.
  apply rounded_pow_ok. intros y F B. pose proof (Rpower2_range _ B) as P. unfold real in *. set (x := Rpower 2 (B2R y)) in *. unfold rounded_pow, finite. fold x. cbv zeta. set (r := rnd x).
  assert (Fr : fmt r) by (apply generic_format_round; [apply FLT_exp_valid; reflexivity|apply valid_rnd_N]).
  assert (Br : 32 <= r <= bpow radix2 64). { split; [apply rnd_ge; [change 32 with (bpow radix2 5); apply generic_format_bpow; vm_compute; discriminate|lra]|apply rnd_le_gen; [apply generic_format_bpow; vm_compute; discriminate|lra]]. }
  set (e := cexp radix2 (SpecFloat.fexp 53 1024) r). set (m := Ztrunc (scaled_mantissa radix2 (SpecFloat.fexp 53 1024) r)).
  assert (V : r = IZR m * bpow radix2 e) by exact Fr.
  assert (M : (5 < mag radix2 r <= 65)%Z). { split; [apply mag_gt_bpow; change (bpow radix2 5) with 32; rewrite Rabs_pos_eq; lra|apply mag_le_bpow; [lra|]]. rewrite Rabs_pos_eq by lra. apply Rle_lt_trans with (bpow radix2 64); [lra|apply bpow_lt; lia]. }
  assert (Ee : e = (mag radix2 r - 53)%Z). { unfold e, cexp, SpecFloat.fexp, SpecFloat.emin. lia. }
  assert (Mb : (Z.abs m <= 2 ^ 53)%Z).
  { apply le_IZR. rewrite abs_IZR. apply Rmult_le_reg_r with (bpow radix2 e); [apply bpow_gt_0|]. rewrite <- (Rabs_pos_eq (bpow radix2 e)) at 1 by apply bpow_ge_0. rewrite <- Rabs_mult, <- V. change (IZR (2 ^ 53)) with (bpow radix2 53). rewrite <- bpow_plus.
    replace (53 + e)%Z with (mag radix2 r : Z) by lia. left. apply bpow_mag_gt. }
  destruct (lit_spec m e Mb ltac:(lia)) as (F1 & V1). split; auto. rewrite V1. auto.
Qed.
(** Two sketches of different lgK under one union. *)
Example ex_union : exists l : sources (F := f64 * f64), good_sources 9001 l /\ (2 * length (all_coupons l) <= room (6 + min_lg 6 l))%nat /\ length (all_coupons l) = 134%nat /\ min_lg 6 l = 4%nat.
Proof.
  destruct (build_acc 5 9001 (grid (seq 0 32) (seq 0 4)) 4) as (s1 & E1 & I1 & L1 & _ & _ & S1); try lia. { apply small_ordinary; [apply Nat.leb_le; vm_compute; reflexivity|vm_compute; reflexivity]. }
  destruct (build_acc 4 9001 (grid [3; 7; 9]%nat [5; 40]%nat) 41) as (s2 & E2 & I2 & L2 & _ & _ & S2); try lia. { apply small_ordinary; [apply Nat.leb_le; vm_compute; reflexivity|vm_compute; reflexivity]. }
  exists [(s1, added (coupons 5 (grid (seq 0 32) (seq 0 4)))); (s2, added (coupons 4 (grid [3; 7; 9]%nat [5; 40]%nat)))].
  split; [apply Forall_cons; [exact (conj I1 S1)|apply Forall_cons; [exact (conj I2 S2)|apply Forall_nil]]|]. clear E1 E2 I1 I2. set (a := added (coupons 5 _)). set (b := added (coupons 4 _)). assert (M : min_lg 6 [(s1, a); (s2, b)] = 4%nat).
  { vm_compute in a. vm_compute in b. subst a b. cbn [min_lg]. rewrite L1, L2. reflexivity. }
  rewrite M. assert (A : length (all_coupons [(s1, a); (s2, b)]) = 134%nat) by (unfold all_coupons; cbn [map snd concat]; rewrite !app_length; vm_compute; reflexivity). rewrite A. split; [apply Nat.leb_le; vm_compute; reflexivity|auto].
Qed.
Print Assumptions cpc_bounds_enclose.
Print Assumptions cpc_hip_estimate.
Print Assumptions cpc_union_bounds.
Print Assumptions cpc_kappa_unchecked_refuted.
