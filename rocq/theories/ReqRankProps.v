(** * C76: REQ's normalised ranks, quantiles, CDF, PMF and error bounds, in binary64.

    [B2R] is the real number a finite float64 stands for, [rnd x] the float64 nearest to the real x (ties to even); [unit] and
    [sumR] are those of RankProps, histories ([made]) and statuses those of ReqProps. *)
From Coq Require Import ZArith Bool List Lia Lra Reals Sorting.Sorted Floats.SpecFloat.
From Flocq Require Import Core BinarySingleNaN.
From Verif Require Import Base Bytes Arr BitPackModel SearchModel SearchProps KllModel KllProofs KllSem KllProps FloatModel FloatProofs RankModel RankProofs RankProps
  ReqModel ReqProofs ReqSem ReqView ReqProps ReqRankModel ReqRankProofs.
From Coq Require Import Rdefinitions.
Import ListNotations.
Local Open Scope nat_scope.

(** ** The error bounds of a rank, as real numbers

    [REL] is the square root of 0.0512/3 and [FIX] is 0.084 (ReqRankProofs). The standard error at rank r is the lesser of
    FIX / k and REL / k times the distance of r from the accurate end ([far]: 1 - r if that is the high end, r if it is the low end). *)
Definition margin (k : Z) (hra : bool) (sd : Z) (r : R) : R := (IZR sd * Rmin (REL / IZR k * far hra r) (FIX / IZR k))%R.
(** The difference of rounding allowed *)
Definition slack : R := bpow radix2 (-51).

Theorem margin_constants : REL = sqrt (0.0512 / 3) /\ FIX = 0.084%R /\ far true 0 = 1%R /\ far false 0 = 0%R.
Proof. unfold REL, FIX, far. split; [f_equal; lra|]. repeat split; lra. Qed.

(** Both bounds are finite and on their side of the rank; they are the rank where it counts as exact, and otherwise lie at the
    margin from it. *)
Theorem rank_bounds_order : forall k levels r sd hra n, (4 <= k <= 1024)%Z -> (0 <= sd <= 3)%Z -> unit r ->
  let lb := rank_lower k levels r sd hra n in let ub := rank_upper k levels r sd hra n in
  is_finite lb = true /\ is_finite ub = true /\ (B2R lb <= B2R r <= B2R ub)%R /\
  (exact_rank64 k levels r hra n = true -> lb = r /\ ub = r) /\
  (exact_rank64 k levels r hra n = false -> (Rabs (B2R lb - (B2R r - margin k hra sd (B2R r))) <= slack)%R /\ (Rabs (B2R ub - (B2R r + margin k hra sd (B2R r))) <= slack)%R).
Proof.
  intros k levels r sd hra n Hk Hs (F & B) lb ub. unfold rank_lower in lb. unfold rank_upper in ub.
  destruct (exact_rank64 k levels r hra n) eqn:EX.
  - subst lb ub. split; auto. split; auto. split; [lra|]. split; [auto|discriminate].
  - destruct (parts_ok k hra r Hk F B) as ((F1 & B1 & C1) & (F2 & B2 & C2)).
    destruct (times_sd _ _ sd Hs F1 B1 C1) as (G1 & D1 & E1). destruct (times_sd _ _ sd Hs F2 B2 C2) as (G2 & D2 & E2).
    destruct (off_ok r _ _ F B G1 D1 E1) as ((S1 & S2 & _ & S3) & (A1 & A2 & _ & A3)). destruct (off_ok r _ _ F B G2 D2 E2) as ((T1 & T2 & _ & T3) & (V1 & V2 & _ & V3)).
    destruct (fmax_val _ _ S1 T1) as (L1 & L2). destruct (fmin_val _ _ A1 V1) as (M1 & M2). fold lb in L1, L2. fold ub in M1, M2.
    split; auto. split; auto. split; [rewrite L2, M2; split; [apply Rmax_lub; auto|apply Rmin_glb; auto]|]. split; [discriminate|]. intros _.
    assert (SL : slack = (64 * U)%R) by (unfold slack; change (-51)%Z with (6 - 57)%Z; rewrite bp_U; reflexivity). rewrite SL. pose proof U_pos.
    assert (S : (0 <= IZR sd)%R) by (apply IZR_le; lia). unfold margin.
    set (a := (REL / IZR k * far hra (B2R r))%R) in *. set (b := (FIX / IZR k)%R) in *.
    assert (MM : (IZR sd * Rmin a b = Rmin (IZR sd * a) (IZR sd * b))%R).
    { unfold Rmin. destruct (Rle_dec a b), (Rle_dec (IZR sd * a) (IZR sd * b)); auto; try nra. }
    rewrite L2, M2, MM. apply Rabs_le_inv in S3, A3, T3, V3. split; apply Rabs_le.
    + unfold Rmax, Rmin. destruct (Rle_dec (B2R (fsub r (fmul (f_of_Z sd) (relative_part k r hra)))) (B2R (fsub r (fmul (f_of_Z sd) (fixed_part k))))), (Rle_dec (IZR sd * a) (IZR sd * b)); lra.
    + unfold Rmin. destruct (Rle_dec (B2R (fadd r (fmul (f_of_Z sd) (relative_part k r hra)))) (B2R (fadd r (fmul (f_of_Z sd) (fixed_part k))))), (Rle_dec (IZR sd * a) (IZR sd * b)); lra.
Qed.

(** On the accurate side the bound stays inside [0, 1]. *)
Theorem rank_bounds_accurate_side : forall k levels r sd (hra : bool) n, (4 <= k <= 1024)%Z -> (0 <= sd <= 3)%Z -> unit r -> (0 < n < 2 ^ 47)%N ->
  if hra then unit (rank_upper k levels r sd hra (Z.of_N n)) else unit (rank_lower k levels r sd hra (Z.of_N n)).
Proof.
  intros k levels r sd hra n Hk Hs Hr Hn. destruct (rank_bounds_order k levels r sd hra (Z.of_N n) Hk Hs Hr) as (FL & FU & O & EX & NX). cbv zeta in *.
  destruct (exact_rank64 k levels r hra (Z.of_N n)) eqn:E.
  { destruct (EX eq_refl) as (E1 & E2). destruct hra; [rewrite E2|rewrite E1]; auto. }
  destruct (NX eq_refl) as (N1 & N2). destruct Hr as (F & B). unfold exact_rank64 in E.
  destruct ((levels =? 1) || (Z.of_N n <=? k * init_sections))%Z eqn:E0; [discriminate|]. apply orb_false_iff in E0. destruct E0 as (_ & E0). apply Z.leb_gt in E0.
  assert (Eb : (k * init_sections)%Z = Z.of_N (Z.to_N (k * init_sections))) by (unfold init_sections; lia). set (b := Z.to_N (k * init_sections)) in *.
  assert (Hb : (12 <= b)%N) by (unfold b, init_sections; lia). rewrite Eb in *. change (fdiv (f_of_Z (Z.of_N b)) (f_of_Z (Z.of_N n))) with (norm_rank b n) in E.
  pose proof (frac_close b n Hn ltac:(lia)) as Cb. pose proof (step_big n Hn) as St. pose proof U_pos as U0.
  destruct (norm_rank_spec b n) as (Fb & _ & Bb); try lia.
  assert (Big : (12 * / IZR (Z.of_N n) <= IZR (Z.of_N b) / IZR (Z.of_N n))%R).
  { unfold Rdiv. apply Rmult_le_compat_r; [|apply (IZR_le 12); lia]. lra. }
  assert (SL : slack = (64 * U)%R) by (unfold slack; change (-51)%Z with (6 - 57)%Z; rewrite bp_U; reflexivity). rewrite SL in *.
  assert (KK : (4 <= IZR k <= 1024)%R) by (split; apply IZR_le; lia). assert (I : (0 < / IZR k <= / 4)%R) by (split; [apply Rinv_0_lt_compat; lra|apply Rinv_le; lra]).
  pose proof rel_range as (RR & _). assert (SS : (0 <= IZR sd <= 3)%R) by (split; apply IZR_le; lia).
  assert (Mg : (margin k hra sd (B2R r) <= / 8 * far hra (B2R r))%R).
  { unfold margin. assert (W : (0 <= far hra (B2R r))%R) by (destruct hra; cbn [far]; lra). set (w := far hra (B2R r)) in *.
    assert (Q : (0 <= REL / IZR k <= / 24)%R) by (unfold Rdiv; split; nra).
    apply Rle_trans with (IZR sd * (REL / IZR k * w))%R; [apply Rmult_le_compat_l; [lra|apply Rmin_l]|]. assert (REL / IZR k * w <= / 24 * w)%R by nra. nra. }
  apply Rabs_le_inv in N1, N2, Cb. destruct hra; cbn [far] in Mg.
  - split; auto. split; [lra|]. destruct (far_ok true (norm_rank b n) Fb Bb) as (Fw & Bw & _ & Cw). cbn [far] in Cw. apply Rabs_le_inv in Cw.
    destruct (Rle_or_lt (B2R (fsub f_one (norm_rank b n))) (B2R r)) as [L|L]; [apply fle_spec in L; auto; congruence|]. lra.
  - split; auto. split; [|lra]. destruct (Rle_or_lt (B2R r) (B2R (norm_rank b n))) as [L|L]; [apply fle_spec in L; auto; congruence|]. lra.
Qed.

(** ComputeRSE: the distance to the upper bound for one standard deviation *)
Theorem compute_rse_ok : forall k r hra n, (4 <= k <= 1024)%Z -> unit r -> let e := compute_rse k r hra n in
  is_finite e = true /\ (0 <= B2R e <= FIX / IZR k + 2 * slack)%R /\
  (exact_rank64 k 2 r hra n = true -> B2R e = 0%R) /\ (exact_rank64 k 2 r hra n = false -> (Rabs (B2R e - margin k hra 1 (B2R r)) <= 2 * slack)%R).
Proof.
  intros k r hra n Hk Hr e. destruct (rank_bounds_order k 2 r 1 hra n Hk ltac:(lia) Hr) as (_ & FU & O & EX & NX). cbv zeta in *.
  unfold compute_rse in e. set (ub := rank_upper k 2 r 1 hra n) in *. destruct Hr as (F & B).
  assert (SL : slack = (64 * U)%R) by (unfold slack; change (-51)%Z with (6 - 57)%Z; rewrite bp_U; reflexivity). rewrite SL in *. pose proof U_pos as U0. pose proof U_small as US.
  assert (KK : (4 <= IZR k <= 1024)%R) by (split; apply IZR_le; lia). assert (I : (0 < / IZR k <= / 4)%R) by (split; [apply Rinv_0_lt_compat; lra|apply Rinv_le; lra]).
  pose proof fix_range as (FR & _). assert (Q : (0 <= FIX / IZR k <= / 4)%R) by (unfold Rdiv; split; nra).
  assert (MG : (margin k hra 1 (B2R r) <= FIX / IZR k)%R) by (unfold margin; rewrite Rmult_1_l; apply Rmin_r).
  assert (M0 : (0 <= margin k hra 1 (B2R r))%R).
  { unfold margin. rewrite Rmult_1_l. apply Rmin_glb; [|lra]. pose proof rel_range as (RR & _). apply Rmult_le_pos; [unfold Rdiv; nra|destruct hra; cbn [far]; lra]. }
  destruct (exact_rank64 k 2 r hra n) eqn:E.
  - destruct (EX eq_refl) as (_ & E2). subst e. rewrite E2. destruct (sub_spec r r 0) as (Es & Fs & _); auto; try lia. { rewrite Rminus_eq_0, Rabs_R0. apply bpow_ge_0. }
    rewrite Rminus_eq_0, (rnd_id 0 fmt_0) in Es. rewrite Es. split; auto. split; [lra|]. split; [auto|discriminate].
  - destruct (NX eq_refl) as (_ & N2). apply Rabs_le_inv in N2. destruct (sub_spec ub r 0) as (Es & Fs & _); auto; try lia.
    { change (bpow radix2 0) with 1%R. rewrite Rabs_pos_eq; lra. }
    assert (Er : (Rabs (rnd (B2R ub - B2R r) - (B2R ub - B2R r)) <= 16 * U)%R).
    { replace (16 * U)%R with (bpow radix2 (0 - 53)) by (change (0 - 53)%Z with (4 - 57)%Z; rewrite bp_U; reflexivity). apply rnd_abs_err; [lia|]. change (bpow radix2 0) with 1%R. rewrite Rabs_pos_eq; lra. }
    apply Rabs_le_inv in Er. fold e in Es, Fs. rewrite Es. assert (0 <= rnd (B2R ub - B2R r))%R by (apply rnd_nonneg; lra).
    split; auto. split; [lra|]. split; [discriminate|]. intros _. apply Rabs_le. lra.
Qed.

(** With a negative number of standard deviations, which is not refused, the lower bound lies above the rank and the upper bound below. *)
Theorem rank_bounds_negative_deviations_refuted : let r := norm_rank 1 2 in
  flt r (rank_lower 4 2 r (-1) false 100) = true /\ flt (rank_upper 4 2 r (-1) false 100) r = true.
Proof. vm_compute. auto. Qed.

Section Props.
Context {C : Type}.
Variables less ceq : C -> C -> bool.
Variable zero : C.
Variable sort : list C -> list C.
Context {F : Type}.
Variable f_of : nat -> F.
Variable f_shrink : F -> F.
Variable f_half : F -> nat.
(** As in ReqProps *)
Hypothesis order : strict_total less ceq.
Hypothesis sort_perm : forall l, Permutation l (sort l).
Hypothesis sort_sorted : forall l, StronglySorted (fun a b => less b a = false) (sort l).
Hypothesis f_of_ok : forall j, j <= 512 -> f_half (f_of (2 * j)) = j.
Hypothesis f_shrink_ok : forall f, f_half f <= 512 -> 2 <= f_half (f_shrink f) -> f_half f <= 2 * f_half (f_shrink f) /\ f_half (f_shrink f) <= f_half f.
Variable finite : C -> bool.
Notation made := (ReqProps.made less zero sort f_of f_shrink f_half).
Notation sk := (ReqModel.sketch (C := C) (F := F)).
Notation view_ := (ReqModel.sorted_view less ceq zero sort).
Notation below := (KllProps.below less).
Notation is_min := (KllProps.is_min less).
Notation is_max := (KllProps.is_max less).
Notation rank64 := (req_rank64 less ceq zero sort finite).
Notation quantile64 := (req_quantile64 less ceq zero sort).
Notation cdf := (req_cdf less ceq zero sort).
Notation pmf := (req_pmf less ceq zero sort).
Notation qlower := (req_quantile_lower less ceq zero sort).
Notation qupper := (req_quantile_upper less ceq zero sort).

(** The weight counted for x: that of the retained items ([all s] lists them with their weights) up to (or below) x, except that
    nothing is below the minimum, all [n] are up to the maximum, and in between at least one item is counted and one is not. *)
Definition counted (n : N) (l : list (C * N)) (mn mx x : C) (inclusive : bool) : N :=
  if below x inclusive mn then if below x inclusive mx then n else N.min (N.max 1 (weight (below x inclusive) l)) (n - 1) else 0%N.
(** The sketch was not merged into straight after NewSketch, or it has at least two items (see ReqProps). *)
Definition regular (st : status) (s : sk) : Prop := st <> Tainted \/ (2 <= r_n s)%N.
(** What the sketch reports about itself: its retained items and its extremes *)
Definition reports (s : sk) (l : list (C * N)) (mn mx : C) : Prop := all s = Some l /\ min_item s = Ok (Some mn) /\ max_item s = Ok (Some mx).

Lemma counted_le n l mn mx x i : (counted n l mn mx x i <= n)%N.
Proof. unfold counted. destruct (below x i mn); [|lia]. destruct (below x i mx); lia. Qed.
Lemma counted_mono n l mn mx x y i : less y x = false -> (counted n l mn mx x i <= counted n l mn mx y i)%N.
Proof.
  intros H. unfold counted. pose proof (RankProps.below_mono less ceq order x y i) as M.
  assert (W : (weight (below x i) l <= weight (below y i) l)%N) by (apply (wsum_mono (C := C)); intros a _; apply M; auto).
  destruct (below x i mn) eqn:E1; [|lia]. rewrite (M mn) by auto. destruct (below x i mx) eqn:E2; [rewrite (M mx) by auto; lia|]. destruct (below y i mx); lia.
Qed.
Lemma counted_incl n l mn mx x : (counted n l mn mx x false <= counted n l mn mx x true)%N.
Proof.
  unfold counted. assert (M : forall a, below x false a = true -> below x true a = true). { intros a. unfold below. intros Ha. apply negb_true_iff. apply (asym _ _ order). auto. }
  assert (W : (weight (below x false) l <= weight (below x true) l)%N) by (apply (wsum_mono (C := C)); intros a _; apply M; auto).
  destruct (below x false mn) eqn:E1; [|lia]. rewrite (M mn) by auto. destruct (below x false mx) eqn:E2; [rewrite (M mx) by auto; lia|]. destruct (below x true mx); lia.
Qed.

Lemma ready h K st s xs cs : made h K st s xs cs -> regular st s -> xs <> [] -> exists v l mn mx,
  view_ s = Ok v /\ reports s l mn mx /\ ReqModel.is_empty s = false /\ v_n v = r_n s /\ (0 < r_n s < 2 ^ 47)%N /\ (st <> Tainted -> is_min mn xs /\ is_max mx xs) /\
  (forall x i, view_rank less ceq v x i = Some (counted (r_n s) l mn mx x i)).
Proof.
  intros H Hr Hx. destruct (made_good less ceq zero sort f_of f_shrink f_half order sort_perm sort_sorted f_of_ok f_shrink_ok _ _ _ _ _ _ H) as (Ls & G & E & _ & B).
  destruct (view_ok less ceq zero sort f_of f_half order sort_perm sort_sorted f_of_ok _ _ _ _ _ _ _ G E Hx) as (res & mn & mx & M1 & M2 & M3 & M4 & HV & _).
  pose proof (all_ok less sort f_of f_half sort_perm sort_sorted f_of_ok _ _ _ _ _ _ G) as HA.
  assert (En : ReqModel.is_empty s = false). { rewrite (empty_iff less f_half _ _ _ _ _ _ G). destruct xs; congruence. }
  assert (Hn : (0 < r_n s < 2 ^ 47)%N). { unfold ReqModel.is_empty in En. apply N.eqb_neq in En. lia. }
  assert (HR : reports s (wl 1 Ls) mn mx). { split; auto. unfold min_item, max_item. rewrite En, M1, M2. auto. }
  eexists _, (wl 1 Ls), mn, mx. split; [exact HV|]. split; auto. split; auto. split; auto. split; auto. split.
  - intros Hst. destruct st; [|auto|congruence]. destruct E as (E & _). congruence.
  - intros x i. destruct HR as (R1 & R2 & R3).
    exact (req_rank_is_weight less ceq zero sort f_of f_shrink f_half order sort_perm sort_sorted f_of_ok f_shrink_ok _ _ _ _ _ _ _ _ x i mn mx H Hr HV R1 R2 R3).
Qed.
Lemma reports_eq s l mn mx l' mn' mx' : reports s l mn mx -> reports s l' mn' mx' -> l' = l /\ mn' = mn /\ mx' = mx.
Proof. intros (A & B & D) (A' & B' & D'). rewrite A in A'. rewrite B in B'. rewrite D in D'. injection A'. injection B'. injection D'. auto. Qed.
Lemma nrank_ok v n l mn mx x i : v_n v = n -> (0 < n)%N -> (forall x i, view_rank less ceq v x i = Some (counted n l mn mx x i)) ->
  nrank less ceq v x i = Ans (norm_rank (counted n l mn mx x i) n).
Proof. intros E Hn HR. unfold nrank. rewrite E. destruct (N.eqb_spec n 0) as [|NE]; [lia|]. rewrite HR. reflexivity. Qed.

(** An empty sketch answers no query. *)
Theorem req_empty_refuses : forall h K st s cs, made h K st s [] cs -> (forall x i, rank64 s x i = Refused) /\ (forall r i, quantile64 s r i = Refused) /\
  (forall p i, cdf s p i = Refused) /\ (forall p i, pmf s p i = Refused) /\ (forall r sd, qlower s r sd = Refused) /\ (forall r sd, qupper s r sd = Refused).
Proof.
  intros h K st s cs H. destruct (made_good less ceq zero sort f_of f_shrink f_half order sort_perm sort_sorted f_of_ok f_shrink_ok _ _ _ _ _ _ H) as (Ls & G & _).
  assert (En : ReqModel.is_empty s = true) by (rewrite (empty_iff less f_half _ _ _ _ _ _ G); auto).
  unfold qlower, qupper, rank64, quantile64, cdf, pmf, on_req. rewrite En. repeat split; reflexivity.
Qed.

(** ** Ranks: the nearest float64 to the fraction counted; 0 and 1 at the ends; refused for infinite items only *)
Theorem req_norm_rank : forall h K st s xs cs x inclusive, made h K st s xs cs -> regular st s -> xs <> [] -> exists l mn mx,
  reports s l mn mx /\ (finite x = false -> rank64 s x inclusive = Refused) /\
  (finite x = true -> exists r, rank64 s x inclusive = Ans r /\ unit r /\ B2R r = rnd (valR (counted (r_n s) l mn mx x inclusive) / valR (r_n s)) /\
    (B2R r = 1%R -> counted (r_n s) l mn mx x inclusive = r_n s) /\
    (st <> Tainted -> (forall y, In y xs -> below x inclusive y = false) -> B2R r = 0%R) /\
    (st <> Tainted -> (forall y, In y xs -> below x inclusive y = true) -> B2R r = 1%R)).
Proof.
  intros h K st s xs cs x i H Hr Hx. destruct (ready _ _ _ _ _ _ H Hr Hx) as (v & l & mn & mx & HV & HR & En & Ev & Hn & HM & HK).
  exists l, mn, mx. split; auto. unfold rank64, on_req. rewrite En, HV. split; intros Hf; rewrite Hf; [reflexivity|]. cbn [negb]. rewrite (nrank_ok v (r_n s) l mn mx) by (auto; lia).
  eexists. split; [reflexivity|]. pose proof (counted_le (r_n s) l mn mx x i) as HL. destruct (norm_rank_spec (counted (r_n s) l mn mx x i) (r_n s)) as (Fr & _ & B); auto; try lia.
  split; [split; auto|]. split; [apply norm_rank_val; lia|]. split; [|split].
  - intros E1. destruct (N.eq_dec (counted (r_n s) l mn mx x i) (r_n s)) as [|NE]; auto. pose proof (norm_rank_lt1 (counted (r_n s) l mn mx x i) (r_n s) ltac:(lia) ltac:(lia)). lra.
  - intros Hst HA. destruct (HM Hst) as ((M1 & _) & _). assert (E : counted (r_n s) l mn mx x i = 0%N) by (unfold counted; rewrite (HA mn M1); auto). rewrite E. apply norm_rank_0. lia.
  - intros Hst HA. destruct (HM Hst) as ((M1 & _) & (M2 & _)). assert (E : counted (r_n s) l mn mx x i = r_n s) by (unfold counted; rewrite (HA mn M1), (HA mx M2); auto). rewrite E. apply norm_rank_n. lia.
Qed.
Lemma answered_nonempty h K st s xs cs x i r : made h K st s xs cs -> rank64 s x i = Ans r -> xs <> [] /\ finite x = true.
Proof.
  intros H Hr. split.
  - intros ->. destruct (req_empty_refuses _ _ _ _ _ H) as (E & _). rewrite E in Hr. discriminate.
  - unfold rank64, req_rank64 in Hr. destruct (ReqModel.is_empty s); [discriminate|]. destruct (finite x); auto. discriminate.
Qed.
Lemma rank64_val h K st s xs cs x i r l mn mx : made h K st s xs cs -> regular st s -> reports s l mn mx -> rank64 s x i = Ans r -> r = norm_rank (counted (r_n s) l mn mx x i) (r_n s) /\ (0 < r_n s < 2 ^ 47)%N.
Proof.
  intros H Hreg HR Hr. destruct (answered_nonempty _ _ _ _ _ _ _ _ _ H Hr) as (Hx & Hf). destruct (ready _ _ _ _ _ _ H Hreg Hx) as (v & l' & mn' & mx' & HV & HR' & En & Ev & Hn & _ & HK).
  destruct (reports_eq _ _ _ _ _ _ _ HR HR') as (-> & -> & ->). split; auto. unfold rank64, req_rank64, on_req in Hr. rewrite En, Hf, HV in Hr. cbn [negb] in Hr.
  rewrite (nrank_ok v (r_n s) l mn mx) in Hr by (auto; lia). apply same_ans in Hr. auto.
Qed.
Theorem req_norm_rank_monotone : forall h K st s xs cs x y inclusive r q, made h K st s xs cs -> regular st s -> less y x = false ->
  rank64 s x inclusive = Ans r -> rank64 s y inclusive = Ans q -> (B2R r <= B2R q)%R.
Proof.
  intros h K st s xs cs x y i r q H Hreg Hxy Hr Hq. destruct (answered_nonempty _ _ _ _ _ _ _ _ _ H Hr) as (Hx & Hf). destruct (ready _ _ _ _ _ _ H Hreg Hx) as (v & l & mn & mx & _ & HR & _).
  destruct (rank64_val _ _ _ _ _ _ _ _ _ _ _ _ H Hreg HR Hr) as (-> & Hn). destruct (rank64_val _ _ _ _ _ _ _ _ _ _ _ _ H Hreg HR Hq) as (-> & _).
  apply norm_rank_mono; [lia|]. split; [apply counted_mono; auto|apply counted_le].
Qed.
Theorem req_norm_rank_inclusive_larger : forall h K st s xs cs x r q, made h K st s xs cs -> regular st s ->
  rank64 s x false = Ans r -> rank64 s x true = Ans q -> (B2R r <= B2R q)%R.
Proof.
  intros h K st s xs cs x r q H Hreg Hr Hq. destruct (answered_nonempty _ _ _ _ _ _ _ _ _ H Hr) as (Hx & Hf). destruct (ready _ _ _ _ _ _ H Hreg Hx) as (v & l & mn & mx & _ & HR & _).
  destruct (rank64_val _ _ _ _ _ _ _ _ _ _ _ _ H Hreg HR Hr) as (-> & Hn). destruct (rank64_val _ _ _ _ _ _ _ _ _ _ _ _ H Hreg HR Hq) as (-> & _).
  apply norm_rank_mono; [lia|]. split; [apply counted_incl; auto|apply counted_le].
Qed.
Theorem req_ranks_each : forall h K st s xs cs ys inclusive rs, made h K st s xs cs -> req_ranks less ceq zero sort finite s ys inclusive = Ans rs ->
  Forall2 (fun y r => rank64 s y inclusive = Ans r) ys rs.
Proof.
  intros h K st s xs cs ys i rs H. unfold req_ranks. destruct (ReqModel.is_empty s); [discriminate|]. revert rs. induction ys as [|y ys IH]; intros rs; cbn [map all_answers].
  - intros E. injection E as <-. constructor.
  - destruct (rank64 s y i) as [r| | |] eqn:E1; cbn [bind_a]; try discriminate. destruct (all_answers _) as [t| | |] eqn:E2; cbn [bind_a]; try discriminate.
    intros E. apply same_ans in E. subst rs. constructor; auto.
Qed.

(** ** Quantiles *)
(** A rank in [0, 1] gets one of the retained items, the minimum or the maximum: the least for which enough is counted. *)
Theorem req_quantile64_ok : forall h K st s xs cs r inclusive, made h K st s xs cs -> regular st s -> xs <> [] -> unit r -> exists l mn mx z q,
  reports s l mn mx /\ natural_rank r (r_n s) inclusive = Ans z /\ (0 <= z)%Z /\ quantile64 s r inclusive = Ans q /\
  let candidate y := y = mn \/ y = mx \/ In y (map fst l) in
  candidate q /\
  (hits (Z.to_N z) inclusive (r_n s) -> hits (Z.to_N z) inclusive (counted (r_n s) l mn mx q true)) /\
  (forall y, candidate y -> less y q = true -> ~ hits (Z.to_N z) inclusive (counted (r_n s) l mn mx y true)) /\
  (~ hits (Z.to_N z) inclusive (r_n s) -> forall y, candidate y -> less q y = false).
Proof.
  intros h K st s xs cs r i H Hreg Hx Hr. destruct (ready _ _ _ _ _ _ H Hreg Hx) as (v & l & mn & mx & HV & HR & En & Ev & Hn & _ & HK).
  destruct (natural_mono r r (r_n s) i Hr Hr ltac:(lra) ltac:(lia)) as (y0 & z & _ & Hz & Hz0). assert (HR' := HR). destruct HR' as (R1 & R2 & R3).
  destruct (req_quantile_correct less ceq zero sort f_of f_shrink f_half order sort_perm sort_sorted f_of_ok f_shrink_ok _ _ _ _ _ _ _ _ (Z.to_N z) i mn mx H Hreg HV R1 R2 R3) as (q & Q1 & Q2 & Q3 & Q4 & Q5).
  exists l, mn, mx, z, q. split; auto. split; auto. split; [lia|]. split.
  { unfold quantile64, req_quantile64, on_req. rewrite En, HV. unfold nquantile. rewrite Ev, (valid_unit _ Hr). destruct (N.eqb_spec (r_n s) 0) as [|NE]; [lia|]. cbn [negb]. rewrite Hz. cbn [bind_a]. rewrite Q1. reflexivity. }
  cbv zeta in *. split; [exact Q2|]. split; [|split; [|exact Q5]].
  - intros Hh. destruct (Q3 Hh) as (w & Hw & HH). rewrite HK in Hw. apply same_some in Hw. subst w. exact HH.
  - intros y Hy Hl. exact (Q4 y _ Hy Hl (HK y true)).
Qed.
(** Quantiles: the quantile of each rank, or no answer at all *)
Theorem req_quantiles_each : forall h K st s xs cs ranks inclusive qs, made h K st s xs cs -> req_quantiles less ceq zero sort s ranks inclusive = Ans qs ->
  Forall2 (fun r q => quantile64 s r inclusive = Ans q) ranks qs.
Proof.
  intros h K st s xs cs ranks i qs H. unfold req_quantiles, req_quantile64, on_req. destruct (ReqModel.is_empty s); [discriminate|]. destruct (view_ s) as [v| |]; try discriminate.
  revert qs. induction ranks as [|r ranks IH]; intros qs; cbn [map all_answers].
  - intros E. injection E as <-. constructor.
  - destruct (nquantile v r i) as [q| | |] eqn:E1; cbn [bind_a]; try discriminate. destruct (all_answers _) as [t| | |] eqn:E2; cbn [bind_a]; try discriminate.
    intros E. apply same_ans in E. subst qs. constructor; auto.
Qed.
(** Ranks outside [0, 1] are refused; NaN passes the check and what comes then is up to the implementation of the conversion. *)
Theorem req_quantile64_refuses : forall h K st s xs cs r inclusive, made h K st s xs cs -> regular st s -> xs <> [] ->
  (is_nan r = false -> ~ unit r -> quantile64 s r inclusive = Refused) /\ (is_nan r = true -> quantile64 s r inclusive = Unspecified).
Proof.
  intros h K st s xs cs r i H Hreg Hx. destruct (ready _ _ _ _ _ _ H Hreg Hx) as (v & l & mn & mx & HV & HR & En & Ev & Hn & _ & HK).
  unfold quantile64, req_quantile64, on_req. rewrite En, HV. unfold nquantile. rewrite Ev. destruct (N.eqb_spec (r_n s) 0) as [|NE]; [lia|]. split.
  - intros Hnn Hu. destruct (valid_rank r) eqn:Hv; [|reflexivity]. destruct (valid_cases _ Hv) as [|E]; [contradiction|congruence].
  - intros Hnn. destruct r; try discriminate. change (valid_rank B754_nan) with true. cbn [negb].
    assert (E : natural_rank B754_nan (r_n s) i = Unspecified); [|rewrite E; reflexivity].
    unfold natural_rank. assert (M : fmul B754_nan (f_of_Z (Z.of_N (r_n s))) = B754_nan) by (destruct (f_of_Z (Z.of_N (r_n s))); reflexivity). rewrite M.
    destruct (r_n s <=? tail_factor)%N.
    + assert (M2 : fdiv (fround (fmul B754_nan (f_of_Z (Z.of_N tail_factor)))) (f_of_Z (Z.of_N tail_factor)) = B754_nan) by (vm_compute; reflexivity). rewrite M2.
      destruct i; reflexivity.
    + destruct i; reflexivity.
Qed.
Theorem req_quantile64_monotone : forall h K st s xs cs r q inclusive a b, made h K st s xs cs -> regular st s -> unit r -> unit q -> (B2R r <= B2R q)%R ->
  quantile64 s r inclusive = Ans a -> quantile64 s q inclusive = Ans b -> less b a = false.
Proof.
  intros h K st s xs cs r q i a b H Hreg Hr Hq Hrq Ha Hb. assert (Hx : xs <> []).
  { intros ->. destruct (req_empty_refuses _ _ _ _ _ H) as (_ & E & _). rewrite E in Ha. discriminate. }
  destruct (req_quantile64_ok _ _ _ _ _ _ r i H Hreg Hx Hr) as (l & mn & mx & z & a' & HR & Hz & Z0 & Qa & A0 & A1 & A2 & A3). rewrite Ha in Qa. apply same_ans in Qa. subst a'.
  destruct (req_quantile64_ok _ _ _ _ _ _ q i H Hreg Hx Hq) as (l' & mn' & mx' & z' & b' & HR' & Hz' & Z0' & Qb & B0 & B1 & B2 & B3). rewrite Hb in Qb. apply same_ans in Qb. subst b'.
  destruct (reports_eq _ _ _ _ _ _ _ HR HR') as (-> & -> & ->). destruct (ready _ _ _ _ _ _ H Hreg Hx) as (_ & _ & _ & _ & _ & _ & _ & _ & Hn & _).
  destruct (natural_mono r q (r_n s) i Hr Hq Hrq ltac:(lia)) as (y1 & z1 & Y1 & Y2 & Y3). rewrite Hz in Y1. rewrite Hz' in Y2. apply same_ans in Y1, Y2. subst z z'.
  destruct (less b a) eqn:E; auto. exfalso. cbv zeta in *. specialize (A2 b B0 E).
  assert (HD : hits (Z.to_N z1) i (r_n s) \/ ~ hits (Z.to_N z1) i (r_n s)) by (unfold hits; destruct i; lia). destruct HD as [D|D].
  - apply A2. specialize (B1 D). revert B1. unfold hits. destruct i; lia.
  - rewrite (B3 D a A0) in E. discriminate.
Qed.
(** Up to ten million items, the quantile of the rank of an item the sketch can return has that same rank. *)
Theorem req_quantile_of_rank : forall h K st s xs cs l mn mx x r, made h K st s xs cs -> regular st s -> (r_n s <= 10000000)%N -> reports s l mn mx ->
  x = mn \/ x = mx \/ In x (map fst l) -> rank64 s x true = Ans r -> exists q, quantile64 s r true = Ans q /\ (finite q = true -> rank64 s q true = Ans r) /\ less x q = false.
Proof.
  intros h K st s xs cs l mn mx x r H Hreg Hten HR Hcand Hr. destruct (answered_nonempty _ _ _ _ _ _ _ _ _ H Hr) as (Hx & Hf).
  destruct (rank64_val _ _ _ _ _ _ _ _ _ _ _ _ H Hreg HR Hr) as (-> & Hn). set (c := counted (r_n s) l mn mx x true) in *. pose proof (counted_le (r_n s) l mn mx x true) as HL. fold c in HL.
  destruct (norm_rank_spec c (r_n s)) as (Fr & _ & B); try lia.
  destruct (req_quantile64_ok _ _ _ _ _ _ _ true H Hreg Hx (conj Fr B)) as (l' & mn' & mx' & z & q & HR' & Hz & Z0 & Q & A0 & A1 & A2 & A3). destruct (reports_eq _ _ _ _ _ _ _ HR HR') as (-> & -> & ->). cbv zeta in *.
  rewrite natural_of_norm in Hz by (unfold tail_factor; lia). apply same_ans in Hz. subst z. rewrite N2Z.id in *. exists q. split; auto.
  assert (Lq : less x q = false). { destruct (less x q) eqn:E; auto. exfalso. apply (A2 x Hcand E). unfold hits. fold c. lia. }
  split; auto. intros Hq.
  destruct (ready _ _ _ _ _ _ H Hreg Hx) as (v & l2 & mn2 & mx2 & HV & HR2 & En & Ev & _ & _ & HK). destruct (reports_eq _ _ _ _ _ _ _ HR HR2) as (-> & -> & ->).
  unfold rank64, req_rank64, on_req. rewrite En, HV, Hq. cbn [negb]. rewrite (nrank_ok v (r_n s) l mn mx) by (auto; lia). do 2 f_equal.
  pose proof (counted_mono (r_n s) l mn mx q x true Lq) as M. fold c in M. assert (A : hits c true (counted (r_n s) l mn mx q true)) by (apply A1; unfold hits; lia). unfold hits in A. lia.
Qed.

(** ** CDF and PMF *)
Theorem req_cdf_ok : forall h K st s xs cs points inclusive, made h K st s xs cs -> regular st s -> xs <> [] ->
  (Sorted (fun a b => less a b = true) points -> exists rs, cdf s points inclusive = Ans (rs ++ [f_one]) /\
    Forall2 (fun x r => finite x = true -> rank64 s x inclusive = Ans r) points rs /\ B2R f_one = 1%R /\
    Forall unit (rs ++ [f_one]) /\ StronglySorted (fun a b => (B2R a <= B2R b)%R) (rs ++ [f_one])) /\
  (~ Sorted (fun a b => less a b = true) points -> cdf s points inclusive = Refused /\ pmf s points inclusive = Refused).
Proof.
  intros h K st s xs cs points i H Hreg Hx. destruct (ready _ _ _ _ _ _ H Hreg Hx) as (v & l & mn & mx & HV & HR & En & Ev & Hn & _ & HK).
  unfold cdf, pmf, req_cdf, req_pmf, on_req. rewrite En, HV. unfold npmf, ncdf. split.
  - intros HSo. assert (CI := HSo). apply (check_items_sorted less) in CI. rewrite CI. cbn [negb]. set (g := fun x => norm_rank (counted (r_n s) l mn mx x i) (r_n s)).
    rewrite (all_answers_map _ g) by (intros x _; apply nrank_ok; auto; lia). cbn [bind_a].
    destruct one_val as (E1 & F1).
    assert (Un : forall x, unit (g x)). { intros x. pose proof (counted_le (r_n s) l mn mx x i). destruct (norm_rank_spec (counted (r_n s) l mn mx x i) (r_n s)) as (Fr & _ & B); try lia. split; auto. }
    exists (map g points). split; auto. split; [|split; [|split]]; auto.
    + clear HSo CI. induction points as [|x t IH]; constructor; auto. intros Hf. unfold rank64, req_rank64, on_req. rewrite En, HV, Hf. apply nrank_ok; auto. lia.
    + apply Forall_app. split; [apply Forall_map; apply Forall_forall; auto|]. constructor; auto. split; auto. rewrite E1. lra.
    + apply Sorted_StronglySorted in HSo. 2:{ intros a b c. apply (st_trans _ _ order). }
      clear CI. induction HSo as [|x t HSt IH HFo]; cbn [map app]; [repeat constructor|]. constructor; auto. apply Forall_app. split.
      * apply Forall_map. eapply Forall_impl; [|exact HFo]. intros y Hy. cbn beta. apply norm_rank_mono; [lia|]. split; [|apply counted_le]. apply counted_mono. apply (asym _ _ order). auto.
      * constructor; auto. rewrite E1. apply Un.
  - intros HSo. destruct (check_items less points) eqn:CI; [apply check_items_sorted in CI; contradiction|]. auto.
Qed.
Theorem req_pmf_ok : forall h K st s xs cs points inclusive rs, made h K st s xs cs -> regular st s -> cdf s points inclusive = Ans rs ->
  exists ms, pmf s points inclusive = Ans ms /\
  length ms = length points + 1 /\ Forall unit ms /\ (Rabs (sumR ms - 1) <= INR (length points) * bpow radix2 (-53))%R /\
  nth_error ms 0 = nth_error rs 0 /\
  forall k a b, nth_error rs k = Some a -> nth_error rs (k + 1) = Some b -> exists m, nth_error ms (k + 1) = Some m /\ B2R m = rnd (B2R b - B2R a).
Proof.
  intros h K st s xs cs points i rs H Hreg HC. assert (Hx : xs <> []).
  { intros ->. destruct (req_empty_refuses _ _ _ _ _ H) as (_ & _ & E & _). rewrite E in HC. discriminate. }
  destruct (req_cdf_ok _ _ _ _ _ _ points i H Hreg Hx) as (HY & HN).
  destruct (check_items less points) eqn:CI.
  2:{ destruct HN as (E & _). { intros S. apply (check_items_sorted less) in S. congruence. } rewrite E in HC. discriminate. }
  assert (CS := CI). apply check_items_sorted in CS. destruct (HY CS) as (r0 & E & F2 & E1 & Un & S). rewrite HC in E. apply same_ans in E. subst rs.
  assert (EP : pmf s points i = Ans (masses (r0 ++ [f_one]))).
  { revert HC. unfold pmf, cdf, req_pmf, req_cdf, on_req. destruct (ReqModel.is_empty s); [discriminate|]. destruct (view_ s) as [v| |]; try discriminate.
    unfold npmf. intros ->. reflexivity. }
  rewrite EP. eexists. split; [reflexivity|]. assert (FL : length points = length r0) by (clear -F2; induction F2; cbn [length]; congruence).
  destruct (r0 ++ [f_one]) as [|x t] eqn:ER; [destruct r0; discriminate|]. cbn [masses].
  inversion Un as [|? ? Ux Ut]; subst. destruct (differences_ok t x Ux Ut S) as (A & B & L & D).
  assert (Len : length (x :: t) = length points + 1) by (rewrite <- ER, app_length, FL; reflexivity). cbn [length] in Len.
  assert (ELast : B2R (last t x) = 1%R).
  { rewrite <- E1. f_equal. assert (Ea : last (x :: t) x = f_one) by (rewrite <- ER; apply last_last). destruct t; auto. }
  split; [|split; [|split; [|split]]].
  - cbn [length]. rewrite L. lia.
  - constructor; auto.
  - change (sumR (x :: differences x t)) with (B2R x + sumR (differences x t))%R. rewrite ELast in B.
    replace (B2R x + sumR (differences x t) - 1)%R with (sumR (differences x t) - (1 - B2R x))%R by ring. replace (length points) with (length t) by lia. exact B.
  - reflexivity.
  - intros k a b Ha Hb. rewrite Nat.add_1_r in *. cbn [nth_error] in *. apply D; auto.
Qed.

(** ** Error bounds *)
Lemma made_k h K st s xs cs : made h K st s xs cs -> (4 <= Z.of_nat (r_k s) <= 1024)%Z /\ r_hra s = h /\ r_n s = N.of_nat (length xs) /\ (r_n s < 2 ^ 47)%N.
Proof.
  intros H. destruct (made_good less ceq zero sort f_of f_shrink f_half order sort_perm sort_sorted f_of_ok f_shrink_ok _ _ _ _ _ _ H) as (Ls & G & _ & _ & B).
  destruct (g_k _ _ _ _ _ _ _ _ G) as (_ & Hk). split; [lia|]. split; [apply (g_hra _ _ _ _ _ _ _ _ G)|]. split; auto. apply (g_n _ _ _ _ _ _ _ _ G).
Qed.
(** RankLowerBound and RankUpperBound enclose the rank; the one on the accurate side stays in [0, 1]. *)
Theorem req_rank_bounds : forall h K st s xs cs r sd, made h K st s xs cs -> xs <> [] -> (0 <= sd <= 3)%Z -> unit r ->
  is_finite (req_rank_lower s r sd) = true /\ is_finite (req_rank_upper s r sd) = true /\ (B2R (req_rank_lower s r sd) <= B2R r <= B2R (req_rank_upper s r sd))%R /\
  (h = true -> unit (req_rank_upper s r sd)) /\ (h = false -> unit (req_rank_lower s r sd)).
Proof.
  intros h K st s xs cs r sd H Hx Hs Hr. destruct (made_k _ _ _ _ _ _ H) as (Hk & Hh & En & Bn). unfold req_rank_lower, req_rank_upper. rewrite Hh.
  destruct (rank_bounds_order (Z.of_nat (r_k s)) (Z.of_nat (length (r_comps s))) r sd h (Z.of_N (r_n s)) Hk Hs Hr) as (A & B & D & _). cbv zeta in *.
  pose proof (rank_bounds_accurate_side (Z.of_nat (r_k s)) (Z.of_nat (length (r_comps s))) r sd h (r_n s) Hk Hs Hr) as E. destruct xs as [|x0 t]; [congruence|].
  specialize (E ltac:(rewrite En in *; cbn [length] in *; lia)). split; auto. split; auto. split; auto. split; intros ->; exact E.
Qed.
(** Both bounds equal the rank where the sketch takes it to be exact: with one level only, at most 3k items, or at most 3k items from the
    accurate end (at exactly 3k items from the high end, rounding decides). *)
Theorem req_rank_bounds_exact : forall h K st s xs cs x inclusive r sd, made h K st s xs cs -> regular st s -> (0 <= sd <= 3)%Z -> rank64 s x inclusive = Ans r ->
  exists c, (exists l mn mx, reports s l mn mx /\ c = counted (r_n s) l mn mx x inclusive) /\
  ((h = true -> (c + N.of_nat (3 * r_k s) <> r_n s)%N) ->
   (is_exact_rank s c = true -> req_rank_lower s r sd = r /\ req_rank_upper s r sd = r) /\
   (is_exact_rank s c = false -> (Rabs (B2R (req_rank_lower s r sd) - (B2R r - margin (Z.of_nat (r_k s)) h sd (B2R r))) <= slack)%R /\
                                 (Rabs (B2R (req_rank_upper s r sd) - (B2R r + margin (Z.of_nat (r_k s)) h sd (B2R r))) <= slack)%R)).
Proof.
  intros h K st s xs cs x i r sd H Hreg Hs Hr. destruct (made_k _ _ _ _ _ _ H) as (Hk & Hh & En & Bn). destruct (answered_nonempty _ _ _ _ _ _ _ _ _ H Hr) as (Hx & Hf).
  destruct (ready _ _ _ _ _ _ H Hreg Hx) as (v & l & mn & mx & _ & HR & _). destruct (rank64_val _ _ _ _ _ _ _ _ _ _ _ _ H Hreg HR Hr) as (E & Hn).
  pose proof (counted_le (r_n s) l mn mx x i) as HL. set (c := counted (r_n s) l mn mx x i) in *. exists c. split; [exists l, mn, mx; auto|]. intros Hedge.
  destruct (norm_rank_spec c (r_n s)) as (Fr & _ & B); try lia. assert (Hu : unit r) by (rewrite E; split; auto).
  destruct (rank_bounds_order (Z.of_nat (r_k s)) (Z.of_nat (length (r_comps s))) r sd h (Z.of_N (r_n s)) Hk Hs Hu) as (_ & _ & _ & A1 & A2). cbv zeta in *.
  assert (X : is_exact_rank s c = exact_rank64 (Z.of_nat (r_k s)) (Z.of_nat (length (r_comps s))) r h (Z.of_N (r_n s))).
  { rewrite E, exact_test by (auto; intros Hh'; specialize (Hedge Hh'); lia). unfold is_exact_rank. rewrite Hh. f_equal; [f_equal|].
    - destruct (Nat.eqb_spec (length (r_comps s)) 1), (Z.eqb_spec (Z.of_nat (length (r_comps s))) 1); auto; lia.
    - destruct (N.leb_spec (r_n s) (N.of_nat (r_k s * 3))), (Z.leb_spec (Z.of_N (r_n s)) (3 * Z.of_nat (r_k s))); auto; lia.
    - destruct h.
      + destruct (N.leb_spec (r_n s) (c + N.of_nat (r_k s * 3))), (Z.leb_spec (Z.of_N (r_n s)) (Z.of_N c + 3 * Z.of_nat (r_k s))); auto; lia.
      + destruct (N.leb_spec c (N.of_nat (r_k s * 3))), (Z.leb_spec (Z.of_N c) (3 * Z.of_nat (r_k s))); auto; lia. }
  rewrite X. unfold req_rank_lower, req_rank_upper. rewrite Hh. auto.
Qed.

(** QuantileLowerBound and QuantileUpperBound, where they answer, enclose the quantile; on the accurate side they always answer. *)
Lemma answer_unit h K st s xs cs r i a : made h K st s xs cs -> regular st s -> quantile64 s r i = Ans a -> unit r.
Proof.
  intros H Hreg Ha. assert (Hx : xs <> []). { intros ->. destruct (req_empty_refuses _ _ _ _ _ H) as (_ & E & _). rewrite E in Ha. discriminate. }
  destruct (req_quantile64_refuses _ _ _ _ _ _ r i H Hreg Hx) as (A & B). destruct (is_nan r) eqn:EN; [rewrite B in Ha; [discriminate|auto]|].
  destruct (valid_rank r) eqn:EV; [destruct (valid_cases _ EV); auto; congruence|]. rewrite A in Ha; [discriminate|auto|]. intros Hu. apply valid_unit in Hu. congruence.
Qed.
Theorem req_quantile_bounds : forall h K st s xs cs r sd, made h K st s xs cs -> regular st s -> xs <> [] -> (0 <= sd <= 3)%Z -> unit r -> exists q,
  quantile64 s r true = Ans q /\ (forall a, qlower s r sd = Ans a -> less q a = false) /\ (forall b, qupper s r sd = Ans b -> less b q = false) /\
  (h = true -> exists b, qupper s r sd = Ans b) /\ (h = false -> exists a, qlower s r sd = Ans a).
Proof.
  intros h K st s xs cs r sd H Hreg Hx Hs Hr. destruct (req_quantile64_ok _ _ _ _ _ _ r true H Hreg Hx Hr) as (_ & _ & _ & _ & q & _ & _ & _ & Q & _).
  destruct (req_rank_bounds _ _ _ _ _ _ r sd H Hx Hs Hr) as (FL & FU & O & UH & UL). exists q. split; auto. split; [|split; [|split]].
  - intros a Ha. unfold qlower in Ha. pose proof (answer_unit _ _ _ _ _ _ _ _ _ H Hreg Ha) as U1. eapply (req_quantile64_monotone _ _ _ _ _ _ _ _ true a q H Hreg U1 Hr); auto. apply O.
  - intros b Hb. unfold qupper in Hb. pose proof (answer_unit _ _ _ _ _ _ _ _ _ H Hreg Hb) as U1. eapply (req_quantile64_monotone _ _ _ _ _ _ _ _ true q b H Hreg Hr U1); auto. apply O.
  - intros Hh. destruct (req_quantile64_ok _ _ _ _ _ _ _ true H Hreg Hx (UH Hh)) as (_ & _ & _ & _ & b & _ & _ & _ & Q' & _). exists b. exact Q'.
  - intros Hh. destruct (req_quantile64_ok _ _ _ _ _ _ _ true H Hreg Hx (UL Hh)) as (_ & _ & _ & _ & b & _ & _ & _ & Q' & _). exists b. exact Q'.
Qed.

(** On the other side they need not: once the sketch estimates and has more than 3k items, QuantileLowerBound(0) with high rank accuracy and
    QuantileUpperBound(1) with low rank accuracy always return an error, because the bound of the rank leaves [0, 1]. *)
Theorem req_quantile_bounds_end_refused : forall h K st s xs cs sd, made h K st s xs cs -> regular st s -> (1 <= sd <= 3)%Z ->
  is_estimation_mode s = true -> (N.of_nat (3 * r_k s) < r_n s)%N ->
  if h then qlower s f_zero sd = Refused else qupper s f_one sd = Refused.
Proof.
  intros h K st s xs cs sd H Hreg Hs HE Hbig. destruct (made_k _ _ _ _ _ _ H) as (Hk & Hh & En & Bn).
  assert (Hx : xs <> []). { intros ->. cbn [length] in En. lia. } unfold is_estimation_mode in HE. apply Nat.ltb_lt in HE.
  assert (N0 : norm_rank 0 (r_n s) = f_zero).
  { unfold norm_rank. change (f_of_Z (Z.of_N 0)) with f_zero. destruct (of_N_fin (r_n s)) as (Fn & _); [lia|]. pose proof (of_N_ge1 (r_n s) ltac:(lia)) as G.
    assert (Pos : exists m e Hme, f_of_Z (Z.of_N (r_n s)) = B754_finite false m e Hme).
    { destruct (f_of_Z (Z.of_N (r_n s))) as [sg|sg| |sg m e Hme]; try discriminate; [cbn [B2R] in G; lra|]. destruct sg; [|eauto]. exfalso. cbn [B2R] in G.
      assert (F2R (Float radix2 (cond_Zopp true (Z.pos m)) e) <= 0)%R by (apply F2R_le_0; cbn; lia). lra. }
    destruct Pos as (m & e & Hme & ->). reflexivity. }
  assert (U0 : unit f_zero) by (split; [reflexivity|cbn [B2R f_zero]; lra]). assert (U1 : unit f_one) by (destruct one_val as (E1 & F1); split; [auto|rewrite E1; lra]).
  assert (KK : (4 <= IZR (Z.of_nat (r_k s)) <= 1024)%R) by (split; apply IZR_le; lia). assert (I : (/ 1024 <= / IZR (Z.of_nat (r_k s)))%R) by (apply Rinv_le; lra).
  pose proof rel_range as (RR & _). pose proof fix_range as (FR & _). assert (S : (1 <= IZR sd)%R) by (apply IZR_le; lia).
  assert (Mg : (0.00007 <= margin (Z.of_nat (r_k s)) h sd (if h then 0 else 1))%R).
  { unfold margin. assert (0.00007 <= Rmin (REL / IZR (Z.of_nat (r_k s)) * far h (if h then 0 else 1)) (FIX / IZR (Z.of_nat (r_k s))))%R; [|nra].
    replace (far h (if h then 0 else 1))%R with 1%R by (destruct h; cbn [far]; lra). apply Rmin_glb; unfold Rdiv; nra. }
  assert (SL : slack = (64 * U)%R) by (unfold slack; change (-51)%Z with (6 - 57)%Z; rewrite bp_U; reflexivity). pose proof U_small as US. pose proof U_pos as UP.
  set (k := Z.of_nat (r_k s)) in *. set (lv := Z.of_nat (length (r_comps s))).
  assert (EX : forall r, (if h then r = f_zero else r = f_one) -> exact_rank64 k lv r h (Z.of_N (r_n s)) = false).
  { intros r Er. assert (EN : exact_rank64 k lv (norm_rank (if h then 0 else r_n s) (r_n s)) h (Z.of_N (r_n s)) = false).
    { rewrite exact_test by (auto; try lia; destruct h; lia). unfold lv, k. destruct (Z.eqb_spec (Z.of_nat (length (r_comps s))) 1); [lia|].
      destruct (Z.leb_spec (Z.of_N (r_n s)) (3 * Z.of_nat (r_k s))); [lia|]. cbn [orb]. destruct h; apply Z.leb_gt; lia. }
    destruct h; [rewrite Er, <- N0; exact EN|]. unfold exact_rank64 in *. destruct ((lv =? 1) || (Z.of_N (r_n s) <=? k * init_sections))%Z; [discriminate|]. subst r.
    destruct (fle f_one (fdiv (f_of_Z (k * init_sections)) (f_of_Z (Z.of_N (r_n s))))) eqn:E2; auto. rewrite <- EN. symmetry.
    assert (Fd : is_finite (fdiv (f_of_Z (k * init_sections)) (f_of_Z (Z.of_N (r_n s)))) = true).
    { replace (k * init_sections)%Z with (Z.of_N (N.of_nat (3 * r_k s))) by (unfold k, init_sections; lia). apply (norm_rank_spec (N.of_nat (3 * r_k s)) (r_n s)); lia. }
    destruct (norm_rank_spec (r_n s) (r_n s)) as (Fr & _ & _); try lia. apply fle_spec; auto. apply fle_spec in E2; auto. rewrite norm_rank_n by lia. rewrite <- (proj1 one_val). exact E2. }
  destruct h.
  - destruct (rank_bounds_order k lv f_zero sd true (Z.of_N (r_n s)) Hk ltac:(lia) U0) as (FL & _ & _ & _ & A). destruct (A (EX f_zero eq_refl)) as (A1 & _). apply Rabs_le_inv in A1. cbn [B2R f_zero] in A1.
    unfold qlower, req_quantile_lower, req_rank_lower. rewrite Hh. destruct (req_quantile64_refuses _ _ _ _ _ _ (rank_lower k lv f_zero sd true (Z.of_N (r_n s))) true H Hreg Hx) as (Q & _).
    apply Q; [apply finite_not_nan; auto|]. intros (_ & Bu). rewrite SL in A1. lra.
  - destruct (rank_bounds_order k lv f_one sd false (Z.of_N (r_n s)) Hk ltac:(lia) U1) as (_ & FU & _ & _ & A). destruct (A (EX f_one eq_refl)) as (_ & A1). apply Rabs_le_inv in A1. rewrite (proj1 one_val) in A1.
    unfold qupper, req_quantile_upper, req_rank_upper. rewrite Hh. destruct (req_quantile64_refuses _ _ _ _ _ _ (rank_upper k lv f_one sd false (Z.of_N (r_n s))) true H Hreg Hx) as (Q & _).
    apply Q; [apply finite_not_nan; auto|]. intros (_ & Bu). rewrite SL in A1. lra.
Qed.
End Props.

(** ** Cases that meet the hypotheses: the sketch of 300 integers of ReqProps, in both modes *)
Notation zrank64 := (req_rank64 Z.ltb Z.eqb 0%Z isort (fun _ => true)).
Notation zquantile64 := (req_quantile64 Z.ltb Z.eqb 0%Z isort (F := N)).
Definition on_demo (h : bool) (p : ReqModel.sketch (C := Z) (F := N) -> bool) : bool := match demo h with Some (s, _) => p s | None => false end.
Lemma on_demo_some h p : on_demo h p = true -> exists s cs, zmade h 4 Exact s (rev (scrambled 300)) cs /\ regular Exact s /\ p s = true.
Proof.
  unfold on_demo. destruct (demo h) as [[s cs]|] eqn:E; [|discriminate]. intros H. exists s, cs. split; [|split; auto; left; discriminate].
  apply (run_made h 4 4); auto. vm_compute. reflexivity.
Qed.
Definition count_of (a : answer (list f64)) : nat := match a with Ans l => length l | _ => 0 end.
Definition is_num (a : answer Z) (z : Z) : bool := match a with Ans y => (y =? z)%Z | _ => false end.
Definition refused {A} (a : answer A) : bool := match a with Refused => true | _ => false end.
Definition between (a b c : answer f64) : bool := match a, b, c with Ans a, Ans b, Ans c => flt a b && flt b c && flt f_zero a && flt c f_one | _, _, _ => false end.
Definition demo_checks (h : bool) (s : ReqModel.sketch (C := Z) (F := N)) : bool :=
  between (zrank64 s 100%Z true) (zrank64 s 250%Z true) (zrank64 s 400%Z true) &&
  is_num (zquantile64 s f_zero true) 0 && is_num (zquantile64 s f_one true) 491 &&
  (count_of (req_cdf Z.ltb Z.eqb 0%Z isort s [100%Z; 250%Z] true) =? 3) && (count_of (req_pmf Z.ltb Z.eqb 0%Z isort s [100%Z; 250%Z] true) =? 3) &&
  refused (req_cdf Z.ltb Z.eqb 0%Z isort s [250%Z; 100%Z] true) &&
  (let r := norm_rank 1 2 in flt (req_rank_lower s r 2) r && flt r (req_rank_upper s r 2)) &&
  refused (if h then req_quantile_lower Z.ltb Z.eqb 0%Z isort s f_zero 2 else req_quantile_upper Z.ltb Z.eqb 0%Z isort s f_one 2) &&
  is_estimation_mode s && (N.of_nat (3 * r_k s) <? r_n s)%N.
Example req_rank_case : forall h, exists s cs, zmade h 4 Exact s (rev (scrambled 300)) cs /\ regular Exact s /\ demo_checks h s = true.
Proof. intros h. apply on_demo_some. destruct h; vm_compute; reflexivity. Qed.
(** Rounding at exactly 3k items from the high end: rank 2 of 14 with k = 4 is not taken to be exact, rank 3 of 15 is. *)
Example exact_edge_case : exact_rank64 4 2 (norm_rank 2 14) true 14 = false /\ exact_rank64 4 2 (norm_rank 3 15) true 15 = true.
Proof. vm_compute. auto. Qed.

Print Assumptions rank_bounds_order.
Print Assumptions rank_bounds_accurate_side.
Print Assumptions compute_rse_ok.
Print Assumptions req_norm_rank.
Print Assumptions req_quantile64_ok.
Print Assumptions req_cdf_ok.
Print Assumptions req_pmf_ok.
Print Assumptions req_rank_bounds_exact.
Print Assumptions req_quantile_bounds.
Print Assumptions req_quantile_bounds_end_refused.
