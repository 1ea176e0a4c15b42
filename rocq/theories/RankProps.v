(** * C75: KLL's normalised ranks, quantiles, CDF, PMF and partition boundaries, in binary64.

    [B2R] is the real number a finite float64 stands for, [rnd x] the float64 nearest to the real x (ties to even). *)
From Coq Require Import ZArith Bool List Lia Lra Reals Sorting.Sorted Floats.SpecFloat.
From Flocq Require Import Core BinarySingleNaN.
From Verif Require Import Base Bytes Arr SearchModel SearchProps KllModel KllProofs KllSem KllProps FloatModel FloatProofs RankModel RankProofs.
From Coq Require Import Rdefinitions.
Import ListNotations.
Local Open Scope nat_scope.

(** ** Vocabulary *)
Definition valR (n : N) : R := IZR (Z.of_N n).
(** A finite float64 in the closed unit interval *)
Definition unit (r : f64) : Prop := is_finite r = true /\ (0 <= B2R r <= 1)%R.
Definition sumR (l : list f64) : R := fold_right (fun x a => B2R x + a)%R 0%R l.

(** ** The conversions, for any sketch *)
(** Up to ten million items, a natural rank survives the division by n and the way back. *)
Theorem natural_rank_recovered : forall c n inclusive, (0 < n <= 10000000)%N -> (c <= n)%N -> natural_rank (norm_rank c n) n inclusive = Ans (Z.of_N c).
Proof. intros. apply natural_of_norm; auto. Qed.
(** Beyond, it does not. *)
Theorem natural_rank_recovered_beyond_refuted : natural_rank (norm_rank 11 10000001) 10000001 true = Ans 12%Z.
Proof. vm_compute. reflexivity. Qed.

(** The natural rank of a rank r is r*n rounded up (or down), within the slack of the arithmetic: 10^-7, or n/2^53. *)
Definition close_to (inclusive : bool) (x eps : R) (z : Z) : Prop :=
  (if inclusive then x - eps <= IZR z < x + eps + 1 else x - eps - 1 < IZR z <= x + eps)%R.
Theorem natural_rank_close : forall r n inclusive, unit r -> (0 < n <= 2 ^ 53)%N -> exists z, natural_rank r n inclusive = Ans z /\ (0 <= z <= Z.of_N n)%Z /\
  close_to inclusive (B2R r * valR n) (if (n <=? 10000000)%N then / 10000000 else valR n * bpow radix2 (-53)) z.
Proof.
  intros r n i (F & B) Hn. rewrite natural_rank_spec by (auto; lia). eexists. split; [reflexivity|].
  assert (En : rnd (IZR (Z.of_N n)) = IZR (Z.of_N n)) by (apply rnd_id; apply fmt_IZR; lia).
  pose proof (scaled_range (B2R r) n B ltac:(lia)) as SR. rewrite En in SR. split.
  - split.
    + rewrite <- (up_or_down_IZR i 0). apply up_or_down_le. lra.
    + apply Z.le_trans with (up_or_down i (IZR (Z.of_N n))); [apply up_or_down_le; lra|rewrite up_or_down_IZR; lia].
  - pose proof (scaled_err (B2R r) n B Hn) as E. unfold valR.
    match type of E with (_ <= ?e)%R => generalize dependent e end. intros eps E. apply Rabs_le_inv in E.
    unfold close_to. destruct i; cbn [up_or_down].
    + pose proof (Zceil_ub (scaled (B2R r) n)). pose proof (Zceil_lb (scaled (B2R r) n)). lra.
    + pose proof (Zfloor_lb (scaled (B2R r) n)). pose proof (Zfloor_ub (scaled (B2R r) n)). lra.
Qed.

Lemma natural_mono r q n i : unit r -> unit q -> (B2R r <= B2R q)%R -> (0 < n <= 2 ^ 62)%N -> exists y z,
  natural_rank r n i = Ans y /\ natural_rank q n i = Ans z /\ (0 <= y <= z)%Z.
Proof.
  intros (Fr & Br) (Fq & Bq) H Hn. rewrite !natural_rank_spec by auto. do 2 eexists. split; [reflexivity|]. split; [reflexivity|].
  split; [rewrite <- (up_or_down_IZR i 0); apply up_or_down_le; apply scaled_range; auto; lia|].
  apply up_or_down_le. apply scaled_mono; auto. lia.
Qed.

Lemma valid_unit r : unit r -> valid_rank r = true.
Proof.
  intros (F & B). unfold valid_rank. destruct one_val as (E1 & F1). destruct zero_val as (E0 & F0). apply negb_true_iff. apply orb_false_iff. split.
  - destruct (flt r f_zero) eqn:E; auto. apply flt_spec in E; auto. rewrite E0 in E. lra.
  - destruct (flt f_one r) eqn:E; auto. apply flt_spec in E; auto. rewrite E1 in E. lra.
Qed.
(** Everything else is refused, except the NaN. *)
Lemma valid_cases r : valid_rank r = true -> unit r \/ is_nan r = true.
Proof.
  intros H. unfold valid_rank in H. apply negb_true_iff, orb_false_iff in H. destruct H as (H1 & H2). destruct one_val as (E1 & F1). destruct zero_val as (E0 & F0).
  destruct r as [s|s| |s m e He]; auto.
  - left. split; auto. cbn [B2R]. lra.
  - destruct s; vm_compute in H1, H2; discriminate.
  - left. set (r := B754_finite s m e He) in *. assert (Fr : is_finite r = true) by reflexivity. split; auto.
    pose proof (flt_false _ _ Fr F0 H1) as A. pose proof (flt_false _ _ F1 Fr H2) as B. rewrite E0 in A. rewrite E1 in B. lra.
Qed.

Section Props.
Context {C : Type}.
Variables less ceq : C -> C -> bool.
Variable zero : C.
Variable sort : list C -> list C.
Hypothesis order : strict_total less ceq.
Hypothesis sort_perm : forall l, Permutation l (sort l).
Hypothesis sort_sorted : forall l, StronglySorted (fun a b => less b a = false) (sort l).
Notation made := (made less zero sort).
Notation view_of := (sorted_view less ceq zero sort).
Notation rank64 := (get_rank64 less ceq zero sort).
Notation quantile64 := (get_quantile64 less ceq zero sort).

(** The cache holds no view yet, or the one a query put there. *)
Definition fresh (s : kll) (cache : option view) : Prop := cache = None \/ cache = view_of s.

Lemma made_n K s xs cs : made K s xs cs -> n s = N.of_nat (length xs) /\ (n s < 2 ^ 60)%N.
Proof.
  intros H. destruct (kll_weight_conserved less ceq zero sort order sort_perm sort_sorted _ _ _ _ H) as (l & _ & E & _). split; auto.
  rewrite E. inversion H; subst.
  - reflexivity.
  - destruct (kll_weight_conserved less ceq zero sort order sort_perm sort_sorted _ _ _ _ H0) as (l' & _ & E' & _). cbn [length]. lia.
  - destruct (kll_weight_conserved less ceq zero sort order sort_perm sort_sorted _ _ _ _ H0) as (l' & _ & E' & _).
    destruct (kll_weight_conserved less ceq zero sort order sort_perm sort_sorted _ _ _ _ H1) as (l2 & _ & E2 & _). rewrite app_length. lia.
  - reflexivity.
Qed.

(** An empty sketch answers no query. *)
Theorem kll_empty_refuses : forall K s cs cache, made K s [] cs -> (forall x i, rank64 s cache x i = Refused) /\ (forall r i, quantile64 s cache r i = Refused) /\
  (forall p i, get_cdf less ceq zero sort s cache p i = Refused) /\ (forall p i, get_pmf less ceq zero sort s cache p i = Refused) /\
  (forall m i, fst (get_partition_boundaries less ceq zero sort s cache m i) = Refused).
Proof.
  intros K s cs cache H. destruct (made_n _ _ _ _ H) as (E & _). unfold get_rank64, get_quantile64, get_cdf, get_pmf, get_partition_boundaries, on_view, is_empty.
  rewrite E. cbn [length N.of_nat]. repeat split; reflexivity.
Qed.

Lemma made_ready K s xs cs cache : made K s xs cs -> xs <> [] -> fresh s cache -> exists v l,
  view_of s = Some v /\ iterate zero s = Some l /\ total_n v = n s /\ (0 < n s < 2 ^ 60)%N /\ is_empty s = false /\ setup less ceq zero sort s cache = Some v /\
  weight (fun _ => true) l = n s /\ (forall a, In a l -> (1 <= snd a)%N).
Proof.
  intros H Hx HF. destruct (made_n _ _ _ _ H) as (En & Bn). assert (n s <> 0)%N by (rewrite En; destruct xs; [congruence|cbn [length]; lia]).
  destruct (kll_never_panics less ceq zero sort order sort_perm sort_sorted _ _ _ _ H) as (_ & _ & HV & _). destruct (HV H0) as (v & Hv & _).
  destruct (kll_weight_conserved less ceq zero sort order sort_perm sort_sorted _ _ _ _ H) as (l & HI & _ & HW & _ & HP).
  destruct (made_view less ceq zero sort order sort_perm sort_sorted _ _ _ _ _ _ H Hv HI) as (res & nn & Ev & _ & _ & _ & Enn).
  exists v, l. split; auto. split; auto. split; [rewrite Ev; exact Enn|]. split; [lia|]. split; [unfold is_empty; apply N.eqb_neq; auto|].
  split; [destruct HF as [->|HF]; unfold setup; [exact Hv|rewrite HF, Hv; reflexivity]|]. split; auto.
  intros a Ha. eapply Forall_forall in HP; [|exact Ha]. destruct HP as (lv & _ & ->). assert (2 ^ N.of_nat lv <> 0)%N by (apply N.pow_nonzero; lia). lia.
Qed.

Lemma rank64_ok K s xs cs cache v l x i : made K s xs cs -> view_of s = Some v -> iterate zero s = Some l -> total_n v = n s -> (0 < n s)%N ->
  is_empty s = false -> setup less ceq zero sort s cache = Some v ->
  vrank less ceq v x i = Ans (norm_rank (weight (below less x i) l) (n s)) /\ rank64 s cache x i = Ans (norm_rank (weight (below less x i) l) (n s)).
Proof.
  intros H HV HI Et Hn HE HS.
  assert (E : vrank less ceq v x i = Ans (norm_rank (weight (below less x i) l) (n s))).
  { unfold vrank. rewrite Et. destruct (N.eqb_spec (n s) 0) as [|NE]; [lia|].
    rewrite (kll_rank_is_weight less ceq zero sort order sort_perm sort_sorted _ _ _ _ _ _ x i H HV HI). reflexivity. }
  split; auto. unfold get_rank64, on_view. rewrite HE, HS. exact E.
Qed.
Lemma weight_le p l : (weight p l <= weight (fun _ : C => true) l)%N.
Proof. apply (wsum_mono (C := C)). auto. Qed.

(** ** Ranks: the nearest float64 to the fraction of the weight at most (or below) x; monotone; 0 and 1 at the ends *)
Theorem kll_norm_rank : forall K s xs cs cache x inclusive, made K s xs cs -> xs <> [] -> fresh s cache -> exists l r,
  iterate zero s = Some l /\ rank64 s cache x inclusive = Ans r /\ unit r /\
  ((n s <= 2 ^ 53)%N -> B2R r = rnd (valR (weight (below less x inclusive) l) / valR (n s)) /\ (B2R r = 1%R -> weight (below less x inclusive) l = n s)) /\
  ((forall y, In y xs -> below less x inclusive y = false) -> B2R r = 0%R) /\ ((forall y, In y xs -> below less x inclusive y = true) -> B2R r = 1%R).
Proof.
  intros K s xs cs cache x i H Hx HF. destruct (made_ready _ _ _ _ _ H Hx HF) as (v & l & HV & HI & Et & Hn & HE & HS & HW & HP).
  destruct (rank64_ok _ _ _ _ cache v l x i H HV HI Et ltac:(lia) HE HS) as (_ & HR). pose proof (weight_le (below less x i) l) as HL. rewrite HW in HL.
  exists l. eexists. split; auto. split; [exact HR|]. destruct (norm_rank_spec (weight (below less x i) l) (n s)) as (F & _ & B); auto; try lia.
  split; [split; auto|]. split.
  - intros Hs. split; [apply norm_rank_val; lia|]. intros E1. destruct (N.eq_dec (weight (below less x i) l) (n s)) as [|NE]; auto.
    pose proof (norm_rank_lt1 (weight (below less x i) l) (n s) ltac:(lia) ltac:(lia)). lra.
  - destruct (kll_retained_from_stream less ceq zero sort order sort_perm sort_sorted _ _ _ _ _ H HI) as (d & Hd).
    assert (HIn : forall a, In a l -> In (fst a) xs). { intros a Ha. eapply Permutation_in; [exact Hd|]. apply in_or_app. left. apply in_map. auto. }
    split; intros HA.
    + assert (E : weight (below less x i) l = 0%N).
      { clear -HA HIn. induction l as [|a l IH]; auto. unfold weight in *. cbn [fold_right]. rewrite HA by (apply HIn; left; auto). rewrite IH; auto. intros; apply HIn; right; auto. }
      rewrite E. apply norm_rank_0. lia.
    + assert (E : weight (below less x i) l = n s).
      { rewrite <- HW. clear -HA HIn. induction l as [|a l IH]; auto. unfold weight in *. cbn [fold_right]. rewrite HA by (apply HIn; left; auto). rewrite IH; auto. intros; apply HIn; right; auto. }
      rewrite E. apply norm_rank_n. lia.
Qed.

Lemma below_mono x y i a : less y x = false -> below less x i a = true -> below less y i a = true.
Proof.
  intros H. unfold below. destruct i.
  - rewrite !negb_true_iff. intros H1. destruct (less y a) eqn:E; auto. destruct (st_total _ _ order x a) as [H2|[->|H2]]; [congruence|congruence|].
    rewrite (st_trans _ _ order y a x) in H; auto.
  - intros H1. destruct (st_total _ _ order x y) as [H2|[->|H2]]; auto; [|congruence]. apply (st_trans _ _ order a x y); auto.
Qed.
Theorem kll_norm_rank_monotone : forall K s xs cs cache x y inclusive r q, made K s xs cs -> fresh s cache -> less y x = false ->
  rank64 s cache x inclusive = Ans r -> rank64 s cache y inclusive = Ans q -> (B2R r <= B2R q)%R.
Proof.
  intros K s xs cs cache x y i r q H HF Hxy Hr Hq. assert (Hx : xs <> []).
  { intros ->. destruct (kll_empty_refuses _ _ _ cache H) as (E & _). rewrite E in Hr. discriminate. }
  destruct (made_ready _ _ _ _ _ H Hx HF) as (v & l & HV & HI & Et & Hn & HE & HS & HW & HP).
  destruct (rank64_ok _ _ _ _ cache v l x i H HV HI Et ltac:(lia) HE HS) as (_ & E1). destruct (rank64_ok _ _ _ _ cache v l y i H HV HI Et ltac:(lia) HE HS) as (_ & E2).
  rewrite Hr in E1. rewrite Hq in E2. injection E1 as ->. injection E2 as ->. apply norm_rank_mono; [lia|]. pose proof (weight_le (below less y i) l). split; [|lia].
  apply (wsum_mono (C := C)). intros a _. apply below_mono. auto.
Qed.
Theorem kll_norm_rank_inclusive_larger : forall K s xs cs cache x r q, made K s xs cs -> fresh s cache ->
  rank64 s cache x false = Ans r -> rank64 s cache x true = Ans q -> (B2R r <= B2R q)%R.
Proof.
  intros K s xs cs cache x r q H HF Hr Hq. assert (Hx : xs <> []).
  { intros ->. destruct (kll_empty_refuses _ _ _ cache H) as (E & _). rewrite E in Hr. discriminate. }
  destruct (made_ready _ _ _ _ _ H Hx HF) as (v & l & HV & HI & Et & Hn & HE & HS & HW & HP).
  destruct (rank64_ok _ _ _ _ cache v l x false H HV HI Et ltac:(lia) HE HS) as (_ & E1). destruct (rank64_ok _ _ _ _ cache v l x true H HV HI Et ltac:(lia) HE HS) as (_ & E2).
  rewrite Hr in E1. rewrite Hq in E2. injection E1 as ->. injection E2 as ->. apply norm_rank_mono; [lia|]. pose proof (weight_le (below less x true) l). split; [|lia].
  apply (wsum_mono (C := C)). intros a _. unfold below. intros Ha. apply negb_true_iff. apply (asym _ _ order). auto.
Qed.

(** ** Quantiles *)
Lemma vquantile_get (v : view (C := C)) r i z : (total_n v <> 0)%N -> valid_rank r = true -> natural_rank r (total_n v) i = Ans z ->
  vquantile v r i = or_crash (get_quantile v (Z.to_N z) i).
Proof.
  intros Hn Hv Hz. unfold vquantile. destruct (N.eqb_spec (total_n v) 0) as [|NE]; [congruence|]. rewrite Hv. cbn [negb]. unfold quantile_index. rewrite Hz. cbn [bind_a].
  unfold get_quantile. destruct (find_with_inequality _ _ _ _ _ _ _) as [ix|]; reflexivity.
Qed.

(** A rank in [0, 1] gets a retained item: the least one whose weight reaches the natural rank. *)
Theorem kll_quantile64 : forall K s xs cs cache r inclusive, made K s xs cs -> xs <> [] -> fresh s cache -> unit r -> exists l z q,
  iterate zero s = Some l /\ natural_rank r (n s) inclusive = Ans z /\ (0 <= z)%Z /\ quantile64 s cache r inclusive = Ans q /\ In q (map fst l) /\ In q xs /\
  (forall y, In y (map fst l) -> less y q = true -> ~ hits (Z.to_N z) inclusive (weight (below less y true) l)) /\
  (hits (Z.to_N z) inclusive (n s) -> hits (Z.to_N z) inclusive (weight (below less q true) l)) /\
  (~ hits (Z.to_N z) inclusive (n s) -> forall y, In y (map fst l) -> less q y = false).
Proof.
  intros K s xs cs cache r i H Hx HF Hr. destruct (made_ready _ _ _ _ _ H Hx HF) as (v & l & HV & HI & Et & Hn & HE & HS & HW & HP).
  destruct (natural_mono r r (n s) i Hr Hr ltac:(lra) ltac:(lia)) as (y0 & z & _ & Hz & Hz0).
  destruct (kll_quantile_correct less ceq zero sort order sort_perm sort_sorted _ _ _ _ _ _ (Z.to_N z) i H HV HI) as (q & Q1 & Q2 & Q3 & Q4 & Q5).
  exists l, z, q. split; auto. split; auto. split; [lia|]. split.
  { unfold get_quantile64, on_view. rewrite HE, (valid_unit _ Hr), HS. cbn [negb]. rewrite (vquantile_get v r i z); [rewrite Q1; reflexivity| | |]; try rewrite Et; auto; [lia|apply valid_unit; auto]. }
  split; auto. split; auto.
  destruct (kll_retained_from_stream less ceq zero sort order sort_perm sort_sorted _ _ _ _ _ H HI) as (d & Hd). eapply Permutation_in; [exact Hd|]. apply in_or_app. auto.
Qed.
(** Ranks outside [0, 1] are refused; NaN passes the check and what comes then is up to the implementation of the conversion. *)
Theorem kll_quantile64_refuses : forall K s xs cs cache r inclusive, made K s xs cs -> xs <> [] -> fresh s cache ->
  (is_nan r = false -> ~ unit r -> quantile64 s cache r inclusive = Refused) /\ (is_nan r = true -> quantile64 s cache r inclusive = Unspecified).
Proof.
  intros K s xs cs cache r i H Hx HF. destruct (made_ready _ _ _ _ _ H Hx HF) as (v & l & HV & HI & Et & Hn & HE & HS & HW & HP).
  unfold get_quantile64, on_view. rewrite HE, HS. split.
  - intros Hnn Hu. destruct (valid_rank r) eqn:Hv; [|reflexivity]. destruct (valid_cases _ Hv) as [|E]; [contradiction|congruence].
  - intros Hnn. destruct r; try discriminate. change (valid_rank B754_nan) with true. cbn [negb]. unfold vquantile. rewrite Et.
    destruct (N.eqb_spec (n s) 0) as [|NE]; [lia|]. change (valid_rank B754_nan) with true. cbn [negb]. unfold quantile_index. rewrite Et.
    assert (E : natural_rank B754_nan (n s) i = Unspecified); [|rewrite E; reflexivity].
    unfold natural_rank. assert (M : fmul B754_nan (f_of_Z (Z.of_N (n s))) = B754_nan) by (destruct (f_of_Z (Z.of_N (n s))); reflexivity). rewrite M.
    destruct (n s <=? tail_factor)%N.
    + assert (M2 : fdiv (fround (fmul B754_nan (f_of_Z (Z.of_N tail_factor)))) (f_of_Z (Z.of_N tail_factor)) = B754_nan) by (vm_compute; reflexivity). rewrite M2.
      destruct i; reflexivity.
    + destruct i; reflexivity.
Qed.
Theorem kll_quantile64_monotone : forall K s xs cs cache r q inclusive a b, made K s xs cs -> fresh s cache -> unit r -> unit q -> (B2R r <= B2R q)%R ->
  quantile64 s cache r inclusive = Ans a -> quantile64 s cache q inclusive = Ans b -> less b a = false.
Proof.
  intros K s xs cs cache r q i a b H HF Hr Hq Hrq Ha Hb. assert (Hx : xs <> []).
  { intros ->. destruct (kll_empty_refuses _ _ _ cache H) as (_ & E & _). rewrite E in Ha. discriminate. }
  destruct (kll_quantile64 _ _ _ _ cache r i H Hx HF Hr) as (l & z & a' & HI & Hz & Z0 & Qa & Ia & _ & A1 & A2 & A3). rewrite Ha in Qa. injection Qa as <-.
  destruct (kll_quantile64 _ _ _ _ cache q i H Hx HF Hq) as (l' & z' & b' & HI' & Hz' & Z0' & Qb & Ib & _ & B1 & B2 & B3). rewrite Hb in Qb. injection Qb as <-.
  rewrite HI in HI'. injection HI' as <-.
  destruct (made_n _ _ _ _ H) as (En & Bn). assert (n s <> 0)%N by (rewrite En; destruct xs; [congruence|cbn [length]; lia]).
  destruct (natural_mono r q (n s) i Hr Hq Hrq ltac:(lia)) as (y1 & z1 & Y1 & Y2 & Y3). rewrite Hz in Y1. rewrite Hz' in Y2. injection Y1 as ->. injection Y2 as ->.
  destruct (less b a) eqn:E; auto. exfalso. specialize (A1 b Ib E).
  assert (HD : hits (Z.to_N z1) i (n s) \/ ~ hits (Z.to_N z1) i (n s)) by (unfold hits; destruct i; lia). destruct HD as [D|D].
  - apply A1. specialize (B2 D). revert B2. unfold hits. destruct i; lia.
  - rewrite (B3 D a Ia) in E. discriminate.
Qed.

(** GetRanks and GetQuantiles: the answer to each query, or no answer at all *)
Lemma all_answers_each {A B} (f : A -> answer B) l : forall rs, all_answers (map f l) = Ans rs -> Forall2 (fun x r => f x = Ans r) l rs.
Proof.
  induction l as [|x l IH]; intros rs; cbn [map all_answers].
  - intros E. injection E as <-. constructor.
  - destruct (f x) as [r| | |] eqn:E1; cbn [bind_a]; try discriminate. destruct (all_answers _) as [t| | |] eqn:E2; cbn [bind_a]; try discriminate.
    intros E. injection E as <-. constructor; auto.
Qed.
Theorem kll_ranks_each : forall s cache ys inclusive rs, get_ranks less ceq zero sort s cache ys inclusive = Ans rs ->
  Forall2 (fun y r => rank64 s cache y inclusive = Ans r) ys rs.
Proof.
  intros s cache ys i rs. unfold get_ranks, get_rank64, on_view. destruct (is_empty s); [discriminate|]. destruct (setup less ceq zero sort s cache) as [v|]; [|discriminate]. apply all_answers_each.
Qed.
Theorem kll_quantiles_each : forall s cache ranks inclusive qs, get_quantiles less ceq zero sort s cache ranks inclusive = Ans qs ->
  Forall2 (fun r q => quantile64 s cache r inclusive = Ans q) ranks qs.
Proof.
  intros s cache ranks i qs. unfold get_quantiles, get_quantile64, on_view. destruct (is_empty s); [discriminate|]. destruct (setup less ceq zero sort s cache) as [v|]; [|discriminate]. intros E.
  apply all_answers_each in E. induction E as [|r q ranks qs E1 E2 IH]; constructor; auto. unfold vquantile in *. destruct (total_n v =? 0)%N; [discriminate|]. destruct (valid_rank r); [exact E1|discriminate].
Qed.

(** ** The quantile of the rank of a retained item is that item, up to ten million items. *)
Lemma weight_split p q l : (forall y, In y (map fst l) -> p y = true -> q y = true) -> forall x, In x (map fst l) -> p x = false -> q x = true ->
  (forall a, In a l -> (1 <= snd a)%N) -> (weight p l + 1 <= weight (C := C) q l)%N.
Proof.
  intros H x. induction l as [|a l IH]; [intros []|]. intros Hx Px Qx HP. unfold weight in *. cbn [fold_right]. fold (weight p l) (weight q l) in *.
  assert (HP1 := HP a (or_introl eq_refl)). assert (HI : forall y, In y (map fst l) -> p y = true -> q y = true) by (intros; apply H; auto; right; auto).
  cbn [map] in Hx. destruct Hx as [<-|Hx].
  - rewrite Px, Qx. assert (weight p l <= weight q l)%N; [|unfold weight in *; lia]. apply (wsum_mono (C := C)). intros b Hb. apply HI. apply in_map. auto.
  - specialize (IH HI Hx Px Qx (fun b Hb => HP b (or_intror Hb))). pose proof (H (fst a) (or_introl eq_refl)) as Hf. unfold weight in *. destruct (p (fst a)); [rewrite Hf by auto; lia|].
    destruct (q (fst a)); lia.
Qed.
Theorem kll_quantile_of_rank : forall K s xs cs cache l x inclusive, made K s xs cs -> fresh s cache -> (n s <= 10000000)%N ->
  iterate zero s = Some l -> In x (map fst l) -> exists r, rank64 s cache x inclusive = Ans r /\ quantile64 s cache r inclusive = Ans x.
Proof.
  intros K s xs cs cache l x i H HF Hn HI Hin.
  destruct (kll_retained_from_stream less ceq zero sort order sort_perm sort_sorted _ _ _ _ _ H HI) as (d & Hd).
  assert (Hx : xs <> []). { intros ->. apply Permutation_sym, Permutation_nil in Hd. destruct (map fst l); [destruct Hin|discriminate]. }
  destruct (made_ready _ _ _ _ _ H Hx HF) as (v & l' & HV & HI' & Et & Hn' & HE & HS & HW & HP). rewrite HI in HI'. injection HI' as <-.
  destruct (rank64_ok _ _ _ _ cache v l x i H HV HI Et ltac:(lia) HE HS) as (_ & HR). pose proof (weight_le (below less x i) l) as HL. rewrite HW in HL.
  exists (norm_rank (weight (below less x i) l) (n s)). split; auto.
  destruct (norm_rank_spec (weight (below less x i) l) (n s)) as (F & _ & B); auto; try lia.
  destruct (kll_quantile64 _ _ _ _ cache _ i H Hx HF (conj F B)) as (l' & z & q & HI' & Hz & Z0 & Q & Iq & _ & Q1 & Q2 & Q3). rewrite HI in HI'. injection HI' as <-.
  rewrite natural_of_norm in Hz by (unfold tail_factor; lia). injection Hz as <-. rewrite N2Z.id in *. rewrite Q. f_equal.
  destruct (st_total _ _ order q x) as [E|[E|E]]; auto; exfalso.
  - (* q < x *)
    assert (D : hits (weight (below less x i) l) i (n s)).
    { unfold hits. destruct i; auto. assert (weight (below less x false) l + 1 <= weight (fun _ => true) l)%N; [|lia].
      apply weight_split with x; auto. unfold below. apply (st_irrefl _ _ order). }
    specialize (Q2 D). unfold hits in Q2. destruct i.
    + assert (weight (below less q true) l + 1 <= weight (below less x true) l)%N; [|lia]. apply weight_split with x; auto.
      * intros y _. apply below_mono. apply (asym _ _ order). auto.
      * unfold below. rewrite E. reflexivity.
      * unfold below. rewrite (st_irrefl _ _ order). reflexivity.
    + assert (weight (below less q true) l <= weight (below less x false) l)%N; [|lia]. apply (wsum_mono (C := C)). intros a _. unfold below. rewrite negb_true_iff. intros Ha.
      destruct (st_total _ _ order (fst a) q) as [H1|[->|H1]]; auto; [|congruence]. apply (st_trans _ _ order (fst a) q x); auto.
  - (* x < q *)
    apply (Q1 x Hin E). unfold hits. destruct i; [lia|]. assert (weight (below less x false) l + 1 <= weight (below less x true) l)%N; [|lia]. apply weight_split with x; auto.
    + intros y _. unfold below. rewrite negb_true_iff. apply (asym _ _ order).
    + unfold below. apply (st_irrefl _ _ order).
    + unfold below. rewrite (st_irrefl _ _ order). reflexivity.
Qed.

(** ** CDF and PMF *)
Lemma check_items_sorted points : check_items less points = true <-> Sorted (fun a b => less a b = true) points.
Proof.
  induction points as [|x [|y t] IH]; cbn [check_items].
  - split; auto.
  - split; auto.
  - rewrite andb_true_iff, IH. split.
    + intros (A & B). constructor; auto.
    + intros S. inversion S as [|? ? S1 S2]; subst. inversion S2; subst. auto.
Qed.
Lemma all_answers_map {A B} (f : A -> answer B) (g : A -> B) l : (forall x, In x l -> f x = Ans (g x)) -> all_answers (map f l) = Ans (map g l).
Proof.
  induction l as [|a l IH]; intros H; auto. cbn [map all_answers]. rewrite H by (left; auto). cbn [bind_a]. rewrite IH by (intros; apply H; right; auto). reflexivity.
Qed.

(** One answer per split point, the rank of that point, and 1 at the end; never decreasing. *)
Theorem kll_cdf : forall K s xs cs cache points inclusive, made K s xs cs -> xs <> [] -> fresh s cache ->
  (Sorted (fun a b => less a b = true) points -> exists rs, get_cdf less ceq zero sort s cache points inclusive = Ans (rs ++ [f_one]) /\
    Forall2 (fun x r => rank64 s cache x inclusive = Ans r) points rs /\ B2R f_one = 1%R /\
    Forall unit (rs ++ [f_one]) /\ StronglySorted (fun a b => (B2R a <= B2R b)%R) (rs ++ [f_one])) /\
  (~ Sorted (fun a b => less a b = true) points ->
    get_cdf less ceq zero sort s cache points inclusive = Refused /\ get_pmf less ceq zero sort s cache points inclusive = Refused).
Proof.
  intros K s xs cs cache points i H Hx HF. destruct (made_ready _ _ _ _ _ H Hx HF) as (v & l & HV & HI & Et & Hn & HE & HS & HW & HP).
  unfold get_cdf, get_pmf, on_view. rewrite HE, HS. unfold vcdf, vpmf. rewrite Et. destruct (N.eqb_spec (n s) 0) as [|NE]; [lia|]. split.
  - intros HSo. assert (CI := HSo). apply check_items_sorted in CI. rewrite CI. cbn [negb]. set (g := fun x => norm_rank (weight (below less x i) l) (n s)).
    rewrite (all_answers_map _ g) by (intros x _; apply (rank64_ok _ _ _ _ cache v l x i H HV HI Et ltac:(lia) HE HS)). cbn [bind_a].
    destruct one_val as (E1 & F1).
    assert (U : forall x, unit (g x)). { intros x. pose proof (weight_le (below less x i) l). destruct (norm_rank_spec (weight (below less x i) l) (n s)) as (F & _ & B); try lia. split; auto. }
    exists (map g points). split; auto. split; [|split; [|split]]; auto.
    + clear HSo CI. induction points as [|x t IH]; constructor; auto. apply (rank64_ok _ _ _ _ cache v l x i H HV HI Et ltac:(lia) HE HS).
    + apply Forall_app. split; [apply Forall_map; apply Forall_forall; auto|]. constructor; auto. split; auto. rewrite E1. lra.
    + apply Sorted_StronglySorted in HSo. 2:{ intros a b c. apply (st_trans _ _ order). }
      clear CI. induction HSo as [|x t HSt IH HFo]; cbn [map app]; [repeat constructor|]. constructor; auto. apply Forall_app. split.
      * apply Forall_map. eapply Forall_impl; [|exact HFo]. intros y Hy. cbn beta. apply norm_rank_mono; [lia|]. pose proof (weight_le (below less y i) l). split; [|lia].
        apply (wsum_mono (C := C)). intros a _. apply below_mono. apply (asym _ _ order). auto.
      * constructor; auto. rewrite E1. apply U.
  - intros HSo. destruct (check_items less points) eqn:CI; [apply check_items_sorted in CI; contradiction|]. auto.
Qed.

(** The masses: the first rank, then the rounded differences; each in [0, 1]; their exact sum is 1 up to 2^-53 for each split point. *)
Lemma differences_ok : forall l p, unit p -> Forall unit l -> StronglySorted (fun a b => (B2R a <= B2R b)%R) (p :: l) ->
  Forall unit (differences p l) /\ (Rabs (sumR (differences p l) - (B2R (last l p) - B2R p)) <= INR (length l) * bpow radix2 (-53))%R /\
  length (differences p l) = length l /\
  forall k a b, nth_error (p :: l) k = Some a -> nth_error l k = Some b -> exists m, nth_error (differences p l) k = Some m /\ B2R m = rnd (B2R b - B2R a).
Proof.
  induction l as [|x l IH]; intros p Up Ul Sl.
  - cbn [differences sumR fold_right last length]. split; auto. split; [|split; auto]. + change (INR 0) with 0%R. rewrite Rabs_pos_eq; lra. + intros [|k] a b _ Hb; discriminate.
  - inversion Ul as [|? ? Ux Ul']; subst. inversion Sl as [|? ? Sl' Fl]; subst. inversion Fl as [|? ? Hpx _]; subst.
    destruct (IH x Ux Ul' Sl') as (A & B & L & D). destruct Up as (Fp & Bp). destruct Ux as (Fx & Bx).
    destruct (sub_spec x p 0) as (E & F & Bd); auto; try lia. { change (bpow radix2 0) with 1%R. rewrite Rabs_pos_eq; lra. }
    assert (G : (0 <= rnd (B2R x - B2R p))%R) by (apply rnd_nonneg; lra). rewrite E in Bd. rewrite (Rabs_pos_eq _ G) in Bd. change (bpow radix2 0) with 1%R in Bd.
    assert (Er : (Rabs (rnd (B2R x - B2R p) - (B2R x - B2R p)) <= bpow radix2 (-53))%R).
    { apply (rnd_abs_err _ 0); [lia|]. change (bpow radix2 0) with 1%R. rewrite Rabs_pos_eq; lra. }
    cbn [differences]. split; [|split; [|split]].
    + constructor; auto. split; auto. rewrite E. lra.
    + assert (EL : last (x :: l) p = last l x) by (clear; revert x; induction l as [|y l IHl]; intros x; auto; cbn [last] in *; destruct l; auto; apply (IHl x)).
      rewrite EL. change (sumR (fsub x p :: differences x l)) with (B2R (fsub x p) + sumR (differences x l))%R. rewrite E. cbn [length]. rewrite S_INR.
      replace (rnd (B2R x - B2R p) + sumR (differences x l) - (B2R (last l x) - B2R p))%R with
        ((rnd (B2R x - B2R p) - (B2R x - B2R p)) + (sumR (differences x l) - (B2R (last l x) - B2R x)))%R by ring.
      eapply Rle_trans; [apply Rabs_triang|]. lra.
    + cbn [length]. f_equal. auto.
    + intros [|k] a b Ha Hb; cbn [nth_error] in *.
      * injection Ha as <-. injection Hb as <-. eauto.
      * apply D; auto.
Qed.
Theorem kll_pmf : forall K s xs cs cache points inclusive rs, made K s xs cs -> fresh s cache ->
  get_cdf less ceq zero sort s cache points inclusive = Ans rs -> exists ms, get_pmf less ceq zero sort s cache points inclusive = Ans ms /\
  length ms = length points + 1 /\ Forall unit ms /\ (Rabs (sumR ms - 1) <= INR (length points) * bpow radix2 (-53))%R /\
  nth_error ms 0 = nth_error rs 0 /\
  forall k a b, nth_error rs k = Some a -> nth_error rs (k + 1) = Some b -> exists m, nth_error ms (k + 1) = Some m /\ B2R m = rnd (B2R b - B2R a).
Proof.
  intros K s xs cs cache points i rs H HF HC. assert (Hx : xs <> []).
  { intros ->. destruct (kll_empty_refuses _ _ _ cache H) as (_ & _ & E & _). rewrite E in HC. discriminate. }
  destruct (kll_cdf _ _ _ _ cache points i H Hx HF) as (HY & HN).
  destruct (check_items less points) eqn:CI.
  2:{ destruct HN as (E & _). { intros S. apply check_items_sorted in S. congruence. } rewrite E in HC. discriminate. }
  assert (CS := CI). apply check_items_sorted in CS. destruct (HY CS) as (r0 & E & F2 & E1 & U & S). rewrite HC in E. injection E as ->.
  assert (EP : get_pmf less ceq zero sort s cache points i = Ans (masses (r0 ++ [f_one]))).
  { unfold get_pmf, get_cdf, on_view in *. destruct (is_empty s); [discriminate|]. destruct (setup less ceq zero sort s cache); [|discriminate].
    unfold vpmf. rewrite CI. cbn [negb]. destruct (total_n v =? 0)%N eqn:E0; [unfold vcdf in HC; rewrite E0 in HC; discriminate|]. rewrite HC. reflexivity. }
  rewrite EP. eexists. split; [reflexivity|]. assert (FL : length points = length r0) by (clear -F2; induction F2; cbn [length]; congruence).
  destruct (r0 ++ [f_one]) as [|x t] eqn:ER; [destruct r0; discriminate|]. cbn [masses].
  inversion U as [|? ? Ux Ut]; subst. destruct (differences_ok t x Ux Ut S) as (A & B & L & D).
  assert (Len : length (x :: t) = length points + 1) by (rewrite <- ER, app_length, FL; reflexivity). cbn [length] in Len.
  assert (ELast : B2R (last t x) = 1%R).
  { rewrite <- E1. f_equal. assert (Ea : last (x :: t) x = f_one) by (rewrite <- ER; apply last_last). destruct t; auto. }
  split; [|split; [|split; [|split]]].
  - cbn [length]. rewrite L. lia.
  - constructor; auto.
  - change (sumR (x :: differences x t)) with (B2R x + sumR (differences x t))%R. rewrite ELast in B.
    replace (B2R x + sumR (differences x t) - 1)%R with (sumR (differences x t) - (1 - B2R x))%R by ring. replace (length points) with (length t) by lia. exact B.
  - reflexivity.
  - intros k a b Ha Hb. rewrite Nat.add_1_r in *. cbn [nth_error] in *. apply D; auto.
Qed.

(** ** Partition boundaries *)
(** What the index search returns on a view with sorted cumulative weights *)
Definition index_for (cw : list N) (z : N) (i : bool) (ix : nat) : Prop :=
  ix < length cw /\ (forall j w, j < ix -> nth_error cw j = Some w -> ~ hits z i w) /\
  ((exists w, nth_error cw ix = Some w /\ hits z i w) \/ ix = length cw - 1).
Lemma index_for_mono cw y z i a b : (y <= z)%N -> index_for cw y i a -> index_for cw z i b -> a <= b.
Proof.
  intros Hyz (A1 & A2 & A3) (B1 & B2 & B3). destruct (Nat.le_gt_cases a b) as [|E]; auto. exfalso. destruct B3 as [(w & Hw & HH)|B3]; [|lia].
  apply (A2 b w E Hw). revert HH. unfold hits. destruct i; lia.
Qed.
Lemma quantile_index_ok (v : view (C := C)) r i z : natural_rank r (total_n v) i = Ans z -> cum_weights v <> [] -> length (quantiles v) = length (cum_weights v) ->
  (forall j k a b, j <= k -> nth_error (cum_weights v) j = Some a -> nth_error (cum_weights v) k = Some b -> (a <= b)%N) ->
  exists ix, quantile_index v r i = Ans (Z.of_nat ix) /\ index_for (cum_weights v) (Z.to_N z) i ix.
Proof.
  intros Hz HN HL HS. unfold quantile_index. rewrite Hz. cbn [bind_a]. rewrite HL. assert (Lp : 0 < length (cum_weights v)) by (destruct (cum_weights v); [congruence|cbn [length]; lia]).
  destruct (find_with_inequality_correct N.ltb N.eqb N_total (cum_weights v) 0 (Z.of_nat (length (cum_weights v)) - 1) (Z.to_N z) (if i then GE else GT)) as (ix & Hix & HA); auto; try lia.
  { intros a b x y Ha Hab Hb Hx Hy. apply at_nth in Hx, Hy. apply N.ltb_ge. apply (HS (Z.to_nat a) (Z.to_nat b)); try lia; tauto. }
  rewrite Hix. cbn [or_crash bind_a]. assert (HW : wants_last (if i then GE else GT) = false) by (destruct i; auto).
  destruct HA as [[-> HA]|(Hr & (w & Hw & Hh) & HA)].
  - rewrite Z.eqb_refl. exists (length (cum_weights v) - 1). split; [f_equal; lia|]. split; [lia|]. split; [|auto].
    intros j w Hj Hw HH. apply (HA (Z.of_nat j) w); [lia|apply nth_at; auto|]. apply reaches_holds. exact HH.
  - rewrite HW in HA. destruct (Z.eqb_spec ix (-1)); [lia|]. exists (Z.to_nat ix). split; [f_equal; lia|]. split; [lia|]. apply at_nth in Hw. split.
    + intros j u Hj Hu HH. assert (ix <= Z.of_nat j)%Z; [|lia]. apply (HA (Z.of_nat j) u); [lia|apply nth_at; auto|]. apply reaches_holds. exact HH.
    + left. exists w. split; [tauto|]. apply reaches_holds in Hh. exact Hh.
Qed.

(** The evenly spaced ranks *)
Lemma spaced_term m k : (2 <= m)%nat -> (Z.of_nat m <= 2 ^ 53)%Z -> (k < m)%nat ->
  exists x, fadd (fmul (f_of_Z (Z.of_nat k)) (fdiv (fsub f_one f_zero) (f_of_Z (Z.of_nat m)))) f_zero = x /\ unit x /\
    B2R x = rnd (IZR (Z.of_nat k) * rnd (1 / IZR (Z.of_nat m))) /\ (Rabs (B2R x - IZR (Z.of_nat k) / IZR (Z.of_nat m)) <= bpow radix2 (-51))%R.
Proof.
  intros Hm Hb Hk. destruct one_val as (E1 & F1). destruct zero_val as (E0 & F0).
  destruct (sub_spec f_one f_zero 0) as (Es & Fs & _); auto; try lia. { rewrite E1, E0. change (bpow radix2 0) with 1%R. rewrite Rabs_pos_eq; lra. }
  rewrite E1, E0, Rminus_0_r, (rnd_id 1 (fmt_IZR 1 ltac:(lia))) in Es.
  destruct (of_Z_val (Z.of_nat m) ltac:(lia)) as (Em & Fm). destruct (of_Z_val (Z.of_nat k) ltac:(lia)) as (Ek & Fk).
  set (M := IZR (Z.of_nat m)) in *. set (Kr := IZR (Z.of_nat k)) in *.
  assert (M1 : (2 <= M)%R) by (apply IZR_le; lia). assert (K1 : (0 <= Kr <= M - 1)%R) by (split; [apply (IZR_le 0); lia|unfold Kr, M; rewrite <- minus_IZR; apply IZR_le; lia]).
  assert (MB : (M <= bpow radix2 53)%R) by (rewrite <- (IZR_Zpower radix2 53) by lia; apply IZR_le; change (Zpower radix2 53) with (2 ^ 53)%Z; lia).
  assert (MI : (bpow radix2 (-53) <= 1 / M <= 1)%R).
  { split.
    - change (-53)%Z with (- (53))%Z. rewrite bpow_opp. unfold Rdiv. rewrite Rmult_1_l. apply Rinv_le; lra.
    - unfold Rdiv. rewrite Rmult_1_l. rewrite <- Rinv_1. apply Rinv_le; lra. }
  destruct (div_spec (fsub f_one f_zero) (f_of_Z (Z.of_nat m)) 0) as (Ed & Fd & _); auto; try lia. { rewrite Em. lra. }
  { rewrite Es, Em. change (bpow radix2 0) with 1%R. pose proof (bpow_gt_0 radix2 (-53)). rewrite Rabs_pos_eq; lra. }
  rewrite Es, Em in Ed. set (D := fdiv (fsub f_one f_zero) (f_of_Z (Z.of_nat m))) in *.
  destruct (rnd_rel (1 / M)) as (e1 & A1 & R1). { pose proof (bpow_gt_0 radix2 (-53)). rewrite Rabs_pos_eq by lra. eapply Rle_trans; [|apply MI]. apply bpow_le. lia. }
  assert (P : (0 <= Kr * rnd (1 / M) <= 1)%R).
  { split; [apply Rmult_le_pos; [lra|apply rnd_nonneg; pose proof (bpow_gt_0 radix2 (-53)); lra]|].
    rewrite R1. apply Rabs_le_inv in A1. replace (Kr * (1 / M * (1 + e1)))%R with (Kr * (1 + e1) / M)%R by (field; lra).
    apply Rmult_le_reg_r with M; [lra|]. unfold Rdiv. rewrite Rmult_assoc, Rinv_l, Rmult_1_r, Rmult_1_l by lra.
    assert (Me : (M * e1 <= 1)%R).
    { apply Rle_trans with (bpow radix2 53 * bpow radix2 (-53))%R; [|rewrite <- bpow_plus; change (bpow radix2 (53 + -53)) with 1%R; lra].
      apply Rle_trans with (M * bpow radix2 (-53))%R; [apply Rmult_le_compat_l; lra|]. apply Rmult_le_compat_r; [apply bpow_ge_0|lra]. }
    destruct (Rle_or_lt e1 0); nra. }
  destruct (mul_spec (f_of_Z (Z.of_nat k)) D 0) as (Ep & Fp & _); auto; try lia. { rewrite Ek, Ed. change (bpow radix2 0) with 1%R. rewrite Rabs_pos_eq; lra. }
  rewrite Ek, Ed in Ep. assert (P2 : (0 <= rnd (Kr * rnd (1 / M)) <= 1)%R).
  { split; [apply rnd_nonneg; lra|]. apply rnd_le_gen; [apply (fmt_IZR 1); lia|lra]. }
  destruct (add_spec (fmul (f_of_Z (Z.of_nat k)) D) f_zero 0) as (Ea & Fa & _); auto; try lia. { rewrite Ep, E0, Rplus_0_r. change (bpow radix2 0) with 1%R. rewrite Rabs_pos_eq; lra. }
  rewrite Ep, E0, Rplus_0_r in Ea. rewrite rnd_id in Ea by (apply generic_format_round; typeclasses eauto).
  eexists. split; [reflexivity|]. split; [split; auto; rewrite Ea; lra|]. split; [exact Ea|]. rewrite Ea.
  destruct (Req_dec Kr 0) as [Z0|Z0].
  - rewrite Z0. unfold Rdiv. rewrite !Rmult_0_l, (rnd_id 0 fmt_0), Rminus_0_r, Rabs_R0. apply bpow_ge_0.
  - assert (K2 : (1 <= Kr)%R). { unfold Kr in *. apply IZR_le. assert (Z.of_nat k <> 0)%Z by (intros X; apply Z0; rewrite X; reflexivity). lia. }
    assert (U : (bpow radix2 (-53) <= 1 / 2)%R) by (eapply Rle_trans; [apply (bpow_le radix2 (-53) (-1)); lia|]; change (bpow radix2 (-1)) with (/ 2)%R; lra).
    apply Rabs_le_inv in A1 as A1'.
    assert (PL : (bpow radix2 (-1022) <= Kr * rnd (1 / M))%R).
    { rewrite R1. apply Rle_trans with (bpow radix2 (-53) * / 2)%R.
      - change (/ 2)%R with (bpow radix2 (-1)). rewrite <- bpow_plus. apply bpow_le. lia.
      - rewrite <- (Rmult_1_l (bpow radix2 (-53) * / 2)). pose proof (bpow_gt_0 radix2 (-53)).
        apply Rmult_le_compat; [lra|lra|lra|]. apply Rmult_le_compat; lra. }
    destruct (rnd_rel (Kr * rnd (1 / M))) as (e2 & A2 & R2). { rewrite Rabs_pos_eq; lra. }
    rewrite R2, R1. replace (Kr * (1 / M * (1 + e1)) * (1 + e2))%R with (Kr / M * (1 + e1) * (1 + e2))%R by (field; lra).
    assert (Q : (0 <= Kr / M <= 1)%R). { split; [apply Rmult_le_pos; [lra|left; apply Rinv_0_lt_compat; lra]|]. apply Rmult_le_reg_r with M; [lra|]. unfold Rdiv. rewrite Rmult_assoc, Rinv_l by lra. lra. }
    destruct (rel_err_prod (Kr / M) e1 e2 A1 A2 ltac:(lra)) as (X & Y). pose proof (bpow_gt_0 radix2 (-51)). apply Rabs_le. split; nra.
Qed.
Lemma evenly_spaced_ok m : (1 <= m)%nat -> (Z.of_nat m <= 2 ^ 53)%Z -> exists rs, evenly_spaced (m + 1) = Ans rs /\ length rs = m + 1 /\ Forall unit rs /\
  StronglySorted (fun a b => (B2R a <= B2R b)%R) rs /\ (exists t, rs = f_zero :: t ++ [f_one]) /\
  (forall k r, nth_error rs k = Some r -> (Rabs (B2R r - IZR (Z.of_nat k) / IZR (Z.of_nat m)) <= bpow radix2 (-51))%R).
Proof.
  intros Hm Hb. destruct one_val as (E1 & F1). destruct zero_val as (E0 & F0). pose proof (bpow_gt_0 radix2 (-51)) as P51.
  assert (U1 : unit f_one) by (split; auto; rewrite E1; lra). assert (U0 : unit f_zero) by (split; auto; rewrite E0; lra).
  unfold evenly_spaced. destruct (Nat.ltb_spec (m + 1) 2); [lia|]. destruct (Nat.eqb_spec (m + 1) 2) as [E|E].
  - assert (m = 1) by lia. subst m. eexists. split; [reflexivity|]. split; [reflexivity|]. split; [auto|]. split; [|split].
    + repeat constructor. rewrite E0, E1. lra.
    + exists []. reflexivity.
    + intros [|[|[|k]]] r Hr; cbn [nth_error] in Hr; try discriminate; injection Hr as <-; rewrite ?E0, ?E1; change (IZR (Z.of_nat 1)) with 1%R; change (IZR (Z.of_nat 0)) with 0%R; rewrite Rabs_pos_eq; lra.
  - set (term := fun i => fadd (fmul (f_of_Z (Z.of_nat i)) (fdiv (fsub f_one f_zero) (f_of_Z (Z.of_nat (m + 1 - 1))))) f_zero).
    assert (TM : forall k, k < m -> unit (term k) /\ B2R (term k) = rnd (IZR (Z.of_nat k) * rnd (1 / IZR (Z.of_nat m))) /\ (Rabs (B2R (term k) - IZR (Z.of_nat k) / IZR (Z.of_nat m)) <= bpow radix2 (-51))%R).
    { intros k Hk. unfold term. replace (m + 1 - 1) with m by lia. destruct (spaced_term m k) as (x & <- & A & B & D); auto; lia. }
    assert (Mp : (0 < IZR (Z.of_nat m))%R) by (apply IZR_lt; lia).
    assert (Gp : (0 <= rnd (1 / IZR (Z.of_nat m)))%R) by (apply rnd_nonneg; left; apply Rdiv_lt_0_compat; lra).
    eexists. split; [reflexivity|]. split; [|split; [|split; [|split]]].
    + cbn [length]. rewrite app_length, map_length, seq_length. cbn [length]. lia.
    + constructor; auto. apply Forall_app. split; [|auto]. apply Forall_map. apply Forall_forall. intros k Hk. apply in_seq in Hk. apply TM. lia.
    + constructor.
      * assert (G : forall c a, a + c <= m -> StronglySorted (fun a b => (B2R a <= B2R b)%R) (map term (seq a c) ++ [f_one])).
        { induction c as [|c IH]; intros a Ha; cbn [seq map app]; [repeat constructor|]. constructor; [apply IH; lia|]. apply Forall_app. split.
          - apply Forall_map, Forall_forall. intros k Hk. apply in_seq in Hk. rewrite (proj1 (proj2 (TM a ltac:(lia)))), (proj1 (proj2 (TM k ltac:(lia)))).
            apply rnd_le. apply Rmult_le_compat_r; auto. apply IZR_le. lia.
          - constructor; auto. rewrite E1. apply TM. lia. }
        apply G. lia.
      * apply Forall_app. split.
        -- apply Forall_map, Forall_forall. intros k Hk. apply in_seq in Hk. rewrite E0. apply (TM k). lia.
        -- constructor; auto. rewrite E0, E1. lra.
    + eexists. reflexivity.
    + intros k r Hr. destruct k as [|k].
      * injection Hr as <-. rewrite E0. change (IZR (Z.of_nat 0)) with 0%R. unfold Rdiv. rewrite Rmult_0_l, Rminus_0_r, Rabs_R0. lra.
      * cbn [nth_error] in Hr. destruct (Nat.lt_ge_cases k (m - 1)) as [Lk|Lk].
        -- rewrite nth_error_app1 in Hr by (rewrite map_length, seq_length; lia). rewrite nth_error_map in Hr.
           rewrite (@List.nth_error_nth' nat (seq 1 (m + 1 - 2)) k 0) in Hr by (rewrite seq_length; lia). rewrite seq_nth in Hr by lia. cbn [option_map] in Hr. injection Hr as <-. apply (TM (1 + k)). lia.
        -- rewrite nth_error_app2 in Hr by (rewrite map_length, seq_length; lia). rewrite map_length, seq_length in Hr.
           assert (k = m - 1). { assert (k - (m + 1 - 2) < 1) by (apply (nth_error_Some [f_one]); congruence). lia. }
           subst k. replace (m - 1 - (m + 1 - 2)) with 0 in Hr by lia. injection Hr as <-. rewrite E1. replace (S (m - 1)) with m by lia.
           unfold Rdiv. rewrite Rinv_r by lra. rewrite Rminus_diag_eq by reflexivity. rewrite Rabs_R0. lra.
Qed.

Definition sumZ (l : list Z) : Z := fold_right Z.add 0%Z l.
Lemma delta_length i : forall nats a len prev, length (delta_items i a len prev nats) = length nats.
Proof. induction nats; intros; cbn [delta_items length]; auto. Qed.
Lemma delta_sum i : forall nats a len prev, nats <> [] -> a + length nats = len -> 1 <= a ->
  sumZ (delta_items i a len prev nats) = (last nats prev - prev + (if i then if (a =? 1)%nat then 1 else 0 else 1))%Z.
Proof.
  induction nats as [|r t IH]; intros a len prev HN HL Ha; [congruence|]. cbn [delta_items sumZ fold_right]. fold (sumZ (delta_items i (a + 1) len r t)). cbn [length] in HL.
  destruct t as [|r2 t].
  - cbn [delta_items sumZ fold_right last]. cbn [length] in HL. destruct (Nat.eqb_spec a (len - 1)); [|lia]. destruct i, (a =? 1); cbn [andb orb negb]; lia.
  - cbn [length] in HL. rewrite (IH (a + 1) len r) by (try discriminate; cbn [length]; lia).
    assert (EL : last (r :: r2 :: t) prev = last (r2 :: t) r).
    { change (last (r :: r2 :: t) prev) with (last (r2 :: t) prev). clear. revert r2. induction t as [|b t IH]; intros r2; auto. change (last (r2 :: b :: t) prev) with (last (b :: t) prev). apply IH. }
    rewrite EL. destruct (Nat.eqb_spec (a + 1) 1); [lia|]. destruct (Nat.eqb_spec a (len - 1)); [lia|]. destruct i, (a =? 1); cbn [andb orb negb]; lia.
Qed.
Lemma delta_nonneg i : forall nats a len prev, StronglySorted Z.le (prev :: nats) -> Forall (fun d => 0 <= d)%Z (delta_items i a len prev nats).
Proof.
  induction nats as [|r t IH]; intros a len prev HS; cbn [delta_items]; constructor.
  - inversion HS as [|? ? _ HF]; subst. inversion HF; subst. destruct (((a =? 1) && i || (a =? len - 1) && negb i)); lia.
  - apply IH. inversion HS; auto.
Qed.

Lemma same_some {A} (a b : A) : Some a = Some b -> a = b.
Proof. congruence. Qed.
Lemma same_ans {A} (a b : A) : Ans a = Ans b -> a = b.
Proof. congruence. Qed.
Lemma wsum_firstn_strict (res : list (C * N)) : (forall a, In a res -> (1 <= snd a)%N) -> forall j k, j < k -> k <= length res ->
  (wsum (fun _ => true) (firstn j res) + N.of_nat (k - j) <= wsum (fun _ => true) (firstn k res))%N.
Proof.
  induction res as [|a res IH]; intros HP j k Hj Hk; [cbn [length] in Hk; lia|]. cbn [length] in Hk. destruct k as [|k]; [lia|].
  assert (Ha := HP a (or_introl eq_refl)). assert (HP' : forall b, In b res -> (1 <= snd b)%N) by (intros; apply HP; right; auto).
  destruct j as [|j]; cbn [firstn]; unfold wsum in *; cbn [fold_right].
  - destruct k as [|k]; [cbn [firstn fold_right]; lia|]. specialize (IH HP' 0 (S k) ltac:(lia) ltac:(lia)). cbn [firstn fold_right] in IH |- *. cbn [firstn fold_right]. lia.
  - specialize (IH HP' j k ltac:(lia) ltac:(lia)). replace (S k - S j) with (k - j) by lia. lia.
Qed.

Lemma sorted_map_nth {A B} (RA : A -> A -> Prop) (RB : B -> B -> Prop) (f : A -> B) l :
  (forall a b, In a l -> In b l -> RA a b -> RB (f a) (f b)) -> StronglySorted RA l -> StronglySorted RB (map f l).
Proof.
  induction l as [|x l IH]; intros HR HS; [constructor|]. inversion HS as [|? ? HS1 HF]; subst. cbn [map]. constructor.
  - apply IH; auto. intros a b Ha Hb. apply HR; right; auto.
  - apply Forall_map. apply Forall_forall. intros y Hy. apply HR; [left; auto|right; auto|]. eapply Forall_forall in HF; eauto.
Qed.

(** The boundaries for [num] parts: num + 1 items of the stream in order, from the minimum to the maximum, at normalised ranks k/num
    (up to 2^-51), and the numbers of items in the parts are not negative and add up to n. *)
Theorem kll_partition : forall K s xs cs cache num inclusive l mn mx, made K s xs cs -> xs <> [] -> fresh s cache -> (n s <= 2 ^ 53)%N ->
  1 <= num -> (Z.of_nat num <= 2 ^ 53)%Z -> iterate zero s = Some l -> (2 <= length l \/ n s = 1%N) -> get_min_item s = Some mn -> get_max_item s = Some mx ->
  exists p after, get_partition_boundaries less ceq zero sort s cache num inclusive = (Ans p, after) /\
    length (boundaries p) = num + 1 /\ nth_error (boundaries p) 0 = Some mn /\ nth_error (boundaries p) num = Some mx /\
    StronglySorted (fun a b => less b a = false) (boundaries p) /\ Forall (fun b => In b xs) (boundaries p) /\
    length (norm_ranks p) = num + 1 /\ StronglySorted (fun a b => (B2R a <= B2R b)%R) (norm_ranks p) /\
    (forall k r, nth_error (norm_ranks p) k = Some r -> (Rabs (B2R r - IZR (Z.of_nat k) / IZR (Z.of_nat num)) <= bpow radix2 (-51))%R) /\
    StronglySorted Z.le (nat_ranks p) /\ length (num_delta p) = num + 1 /\ Forall (fun d => 0 <= d)%Z (num_delta p) /\ sumZ (num_delta p) = Z.of_N (n s).
Proof.
  intros K s xs cs cache num i l mn mx H Hx HF Hn53 Hnum Hnb HI H2 Hmn Hmx.
  destruct (made_ready _ _ _ _ _ H Hx HF) as (v & l' & HV & HI' & Et & Hn & HE & HS & HW & HP). rewrite HI in HI'. injection HI' as <-.
  destruct (kll_min_max_exact less ceq zero sort order sort_perm sort_sorted _ _ _ _ H) as (_ & HM). destruct (HM Hx) as (mn' & mx' & M1 & M2 & M3 & M4).
  rewrite Hmn in M1. rewrite Hmx in M3. injection M1 as <-. injection M3 as <-.
  assert (Emn : min_item s = mn) by (unfold get_min_item in Hmn; rewrite HE in Hmn; congruence).
  assert (Emx : max_item s = mx) by (unfold get_max_item in Hmx; rewrite HE in Hmx; congruence).
  destruct (kll_retained_from_stream less ceq zero sort order sort_perm sort_sorted _ _ _ _ _ H HI) as (d & Hd).
  destruct (made_view less ceq zero sort order sort_perm sort_sorted _ _ _ _ _ _ H HV HI) as (res & nn & Ev & HSo & HPe & HRe & Enn).
  set (L := length res). assert (Lp : 0 < L) by (unfold L; destruct res; [congruence|cbn [length]; lia]).
  assert (LL : length l = L) by (apply Permutation_length in HPe; auto).
  set (cw0 := convert_to_cumulative 0 (map snd res)) in *. assert (Lc0 : length cw0 = L) by (unfold cw0; rewrite cum_length, map_length; auto).
  assert (HPr : forall a, In a res -> (1 <= snd a)%N) by (intros a Ha; apply HP; eapply Permutation_in; [apply Permutation_sym; exact HPe|auto]).
  assert (HInr : forall a, In a res -> In (fst a) xs).
  { intros a Ha. eapply Permutation_in; [exact Hd|]. apply in_or_app. left. apply in_map. eapply Permutation_in; [apply Permutation_sym; exact HPe|auto]. }
  assert (Tot : wsum (fun _ => true) res = n s) by (rewrite <- (wsum_perm zero _ _ _ HPe); exact HW).
  (* the written view *)
  set (cw := upd (L - 1) (n s) (upd 0 1%N cw0)). set (qs := upd (L - 1) mx (upd 0 mn (map fst res))).
  assert (EW : partition_boundaries_writes v s = Some (mkView qs cw (n s))).
  { rewrite Ev. unfold partition_boundaries_writes. cbn [cum_weights quantiles total_n]. rewrite Emn, Emx, Enn. fold cw0. unfold wr. 
    rewrite Lc0. destruct (Nat.ltb_spec 0 L); [|lia]. cbn [bindo]. rewrite !upd_length, Lc0. destruct (Nat.ltb_spec (L - 1) L); [|lia]. cbn [bindo].
    rewrite map_length. fold L. destruct (Nat.ltb_spec 0 L); [|lia]. cbn [bindo]. rewrite !upd_length, map_length. fold L. destruct (Nat.ltb_spec (L - 1) L); [|lia]. reflexivity. }
  assert (Lcw : length cw = L) by (unfold cw; rewrite !upd_length; auto). assert (Lqs : length qs = L) by (unfold qs; rewrite !upd_length, map_length; auto).
  assert (Ncw : forall j, j < L -> nth_error cw j = Some (if j =? L - 1 then n s else if j =? 0 then 1%N else wsum (fun _ => true) (firstn (S j) res))).
  { intros j Hj. unfold cw. destruct (Nat.eqb_spec j (L - 1)) as [->|E]; [apply nth_error_upd_eq; rewrite upd_length; lia|]. rewrite nth_error_upd_neq by auto.
    destruct (Nat.eqb_spec j 0) as [->|E0]; [apply nth_error_upd_eq; lia|]. rewrite nth_error_upd_neq by auto. unfold cw0. rewrite cum_nth by (unfold L in Hj; auto). f_equal. }
  assert (HB : (wsum (fun _ => true) (firstn 0 res) = 0)%N) by reflexivity.
  assert (Scw : forall j k a b, j < k -> nth_error cw j = Some a -> nth_error cw k = Some b -> (1 <= a < b)%N).
  { intros j k a b Hjk Ha Hb. assert (k < L) by (rewrite <- Lcw; apply nth_error_Some; congruence). rewrite Ncw in Ha, Hb by lia. apply same_some in Ha, Hb. subst a b.
    destruct (Nat.eqb_spec j (L - 1)); [lia|]. destruct (Nat.eqb_spec k 0); [lia|].
    pose proof (wsum_firstn_strict res HPr (S j) L ltac:(unfold L in *; lia) ltac:(unfold L; lia)) as A1.
    assert (A1' : firstn L res = res) by (apply firstn_all2; unfold L; lia). rewrite A1' in A1. rewrite Tot in A1.
    pose proof (wsum_firstn_strict res HPr 0 (S j) ltac:(lia) ltac:(unfold L in *; lia)) as A0. rewrite HB in A0.
    pose proof (wsum_firstn_strict res HPr (S j) (S k) ltac:(lia) ltac:(unfold L in *; lia)) as A2.
    destruct (Nat.eqb_spec k (L - 1)); destruct (Nat.eqb_spec j 0); lia. }
  assert (Mcw : forall j k a b, j <= k -> nth_error cw j = Some a -> nth_error cw k = Some b -> (a <= b)%N).
  { intros j k a b Hjk Ha Hb. destruct (Nat.eq_dec j k) as [->|E]; [rewrite Ha in Hb; injection Hb as ->; lia|]. specialize (Scw j k a b ltac:(lia) Ha Hb). lia. }
  assert (C0 : exists a, nth_error cw 0 = Some a /\ (1 <= a)%N /\ (a = 1%N)).
  { rewrite Ncw by lia. eexists. split; [reflexivity|]. destruct (Nat.eqb_spec 0 (L - 1)); [|cbn [Nat.eqb]; lia]. destruct H2 as [H2|H2]; [rewrite LL in H2; lia|lia]. }
  destruct C0 as (c0 & C0 & _ & Ec0). rewrite Ec0 in C0.
  assert (CL : nth_error cw (L - 1) = Some (n s)) by (rewrite Ncw by lia; rewrite Nat.eqb_refl; reflexivity).
  (* the written quantiles *)
  assert (Nqs : forall j, j < L -> exists q, nth_error qs j = Some q /\ In q xs /\ (j = L - 1 -> q = mx) /\ (j <> L - 1 -> j = 0 -> q = mn) /\
             (j <> L - 1 -> j <> 0 -> exists w, nth_error res j = Some (q, w))).
  { intros j Hj. unfold qs. destruct (Nat.eq_dec j (L - 1)) as [->|E].
    - exists mx. rewrite nth_error_upd_eq by (rewrite upd_length, map_length; fold L; lia). repeat split; auto; try lia. apply M4.
    - rewrite nth_error_upd_neq by auto. destruct (Nat.eq_dec j 0) as [->|E0].
      + exists mn. rewrite nth_error_upd_eq by (rewrite map_length; fold L; lia). repeat split; auto; try lia. apply M2.
      + rewrite nth_error_upd_neq by auto. rewrite nth_error_map. destruct (nth_error res j) as [[q w]|] eqn:EE; [|apply nth_error_None in EE; unfold L in Hj; lia].
        exists q. repeat split; auto; try lia. { apply (HInr (q, w)). eapply nth_error_In; eauto. } intros _ _. eauto. }
  assert (Sqs : forall j k a b, j <= k -> nth_error qs j = Some a -> nth_error qs k = Some b -> less b a = false).
  { intros j k a b Hjk Ha Hb. assert (Lk : k < L) by (rewrite <- Lqs; apply nth_error_Some; congruence).
    destruct (Nqs j ltac:(lia)) as (a' & Ea & Ia & A1 & A2 & A3). rewrite Ha in Ea. injection Ea as <-.
    destruct (Nqs k Lk) as (b' & Eb & Ib & B1 & B2 & B3). rewrite Hb in Eb. injection Eb as <-.
    destruct (Nat.eq_dec k (L - 1)) as [Ek|Ek]; [rewrite (B1 Ek); apply M4; auto|].
    destruct (Nat.eq_dec j 0) as [Ej|Ej]; [rewrite (A2 ltac:(lia) Ej); apply M2; auto|].
    destruct (A3 ltac:(lia) Ej) as (wa & Na). destruct (B3 Ek ltac:(lia)) as (wb & Nb).
    exact (sorted_nth less ceq order res j k (a, wa) (b, wb) HSo Hjk Na Nb). }
  (* the indices *)
  destruct (evenly_spaced_ok num Hnum Hnb) as (rs & ER & Lrs & Urs & Srs & (t & Ert) & Crs).
  set (v' := mkView qs cw (n s)).
  assert (IX : forall r, unit r -> exists z ix, natural_rank r (n s) i = Ans z /\ quantile_index v' r i = Ans (Z.of_nat ix) /\ index_for cw (Z.to_N z) i ix).
  { intros r Hr. destruct (natural_mono r r (n s) i Hr Hr ltac:(lra) ltac:(lia)) as (y0 & z & _ & Hz & Hz0).
    destruct (quantile_index_ok v' r i z) as (ix & X1 & X2); auto.
    { unfold v'. cbn [cum_weights]. intros E. rewrite E in Lcw. cbn [length] in Lcw. lia. } { unfold v'. cbn [cum_weights quantiles]. congruence. }
    exists z, ix. auto. }
  set (pos := fun r => match quantile_index v' r i with Ans z => Z.to_nat z | _ => 0 end).
  assert (PX : forall r, unit r -> exists z, natural_rank r (n s) i = Ans z /\ quantile_index v' r i = Ans (Z.of_nat (pos r)) /\ index_for cw (Z.to_N z) i (pos r)).
  { intros r Hr. destruct (IX r Hr) as (z & ix & Y1 & Y2 & Y3). exists z. unfold pos. rewrite Y2, Nat2Z.id. auto. }
  assert (PM : forall a b, unit a -> unit b -> (B2R a <= B2R b)%R -> pos a <= pos b).
  { intros a b Ua Ub Hab. destruct (PX a Ua) as (y & A1 & _ & A3). destruct (PX b Ub) as (z & B1 & _ & B3).
    destruct (natural_mono a b (n s) i Ua Ub Hab ltac:(lia)) as (y' & z' & D1 & D2 & D3). rewrite A1 in D1. rewrite B1 in D2. injection D1 as <-. injection D2 as <-.
    eapply index_for_mono; [|exact A3|exact B3]. lia. }
  destruct one_val as (E1 & F1). destruct zero_val as (E0 & F0).
  assert (U1 : unit f_one) by (split; auto; rewrite E1; lra). assert (U0 : unit f_zero) by (split; auto; rewrite E0; lra).
  assert (P0 : pos f_zero = 0).
  { destruct (PX f_zero U0) as (z & A1 & _ & (A2 & A3 & _)). 
    destruct (natural_rank_close f_zero (n s) i U0 ltac:(lia)) as (z' & Z1 & Z2 & _). rewrite natural_rank_spec in A1 by (auto; rewrite ?E0; try lra; lia).
    assert (z = 0)%Z.
    { rewrite E0 in A1. apply same_ans in A1. subst z. assert (ES : scaled 0 (n s) = 0%R).
      { unfold scaled. rewrite Rmult_0_l, (rnd_id 0 fmt_0), Rmult_0_l, (rnd_id 0 fmt_0), Zrnd_IZR by typeclasses eauto. unfold Rdiv. rewrite Rmult_0_l, (rnd_id 0 fmt_0). destruct (_ <=? _)%N; reflexivity. }
      rewrite ES. apply (up_or_down_IZR i 0). }
    subst z. destruct (pos f_zero) as [|p] eqn:EP; auto. exfalso. apply (A3 0 1%N); auto; try lia. unfold hits. destruct i; cbn [Z.to_N]; lia. }
  assert (P1 : pos f_one = L - 1).
  { destruct (PX f_one U1) as (z & A1 & _ & (A2 & A3 & A4)).
    assert (z = Z.of_N (n s)).
    { rewrite natural_rank_spec in A1 by (auto; rewrite ?E1; try lra; lia). rewrite E1 in A1. apply same_ans in A1. subst z.
      assert (ES : scaled 1 (n s) = IZR (Z.of_N (n s))).
      { destruct (N.leb_spec (n s) tail_factor) as [Lt|Lt].
        - rewrite <- (norm_rank_n (n s)) by lia. apply scaled_of_norm; lia.
        - unfold scaled. destruct (N.leb_spec (n s) tail_factor); [lia|]. rewrite Rmult_1_l. rewrite !(rnd_id (IZR _)); auto; apply fmt_IZR; lia. }
      rewrite ES. apply up_or_down_IZR. }
    subst z. rewrite N2Z.id in *. destruct A4 as [(w & Hw & Hh)|A4]; [|congruence]. destruct (Nat.eq_dec (pos f_one) (L - 1)) as [|NE]; auto.
    exfalso. specialize (Scw (pos f_one) (L - 1) w (n s) ltac:(lia) Hw CL). unfold hits in Hh. destruct i; lia. }
  set (cell := fun r => (nth (pos r) qs mn, Z.of_N (nth (pos r) cw 0%N))).
  assert (PL : forall r, unit r -> pos r < L) by (intros r Hr; destruct (PX r Hr) as (z & _ & _ & (A & _)); rewrite Lcw in A; auto).
  assert (EA : all_answers (map (fun r => bind_a (quantile_index v' r i) (fun ix => or_crash (do q <- at_ (quantiles v') ix; do c <- at_ (cum_weights v') ix; Some (q, Z.of_N c)))) rs) = Ans (map cell rs)).
  { apply all_answers_map. intros r Hr. assert (Ur : unit r) by (eapply Forall_forall in Urs; eauto). destruct (PX r Ur) as (z & _ & A2 & _). rewrite A2. cbn [bind_a].
    unfold v'. cbn [quantiles cum_weights]. pose proof (PL r Ur) as Lr.
    rewrite (nth_at qs (pos r) (nth (pos r) qs mn)) by (apply List.nth_error_nth'; lia). cbn [bindo].
    rewrite (nth_at cw (pos r) (nth (pos r) cw 0%N)) by (apply List.nth_error_nth'; lia). reflexivity. }
  assert (CU : Forall unit rs) by exact Urs.
  assert (Cin : forall r, In r rs -> unit r) by (intros r Hr; eapply Forall_forall in Urs; eauto).
  assert (Lbs : length (map fst (map cell rs)) = num + 1) by (rewrite !map_length; auto).
  assert (Zs : StronglySorted Z.le (map snd (map cell rs))).
  { rewrite map_map. apply (sorted_map_nth (fun a b => (B2R a <= B2R b)%R)); auto. intros a b Ha Hb Hab. cbn [snd cell].
    assert (nth (pos a) cw 0 <= nth (pos b) cw 0)%N; [|lia]. apply (Mcw (pos a) (pos b)); [apply PM; auto| |]; apply List.nth_error_nth'; rewrite Lcw; auto. }
  assert (EG : get_partition_boundaries less ceq zero sort s cache num i = (new_partition i (map fst (map cell rs)) (map snd (map cell rs)) rs, Some v')).
  { unfold get_partition_boundaries. rewrite HE, HS. unfold vpartition. rewrite Et. destruct (N.eqb_spec (n s) 0) as [|NE]; [lia|]. rewrite EW. fold v'. rewrite ER. cbn [bind_a]. rewrite EA. reflexivity. }
  rewrite EG. unfold new_partition. rewrite Lbs. destruct (Nat.ltb_spec (num + 1) 2); [lia|].
  assert (Ecell : map cell rs = cell f_zero :: map cell t ++ [cell f_one]) by (rewrite Ert; cbn [map]; rewrite map_app; reflexivity).
  assert (Esnd : map snd (map cell rs) = 1%Z :: (map snd (map cell t) ++ [Z.of_N (n s)])).
  { rewrite Ecell. cbn [map]. rewrite map_app. cbn [map]. f_equal; [|f_equal; f_equal].
    - cbn [snd cell]. rewrite P0. rewrite (nth_error_nth _ _ _ C0). reflexivity.
    - cbn [snd cell]. rewrite P1. rewrite (nth_error_nth _ _ _ CL). reflexivity. }
  rewrite Esnd in *. do 2 eexists. split; [reflexivity|]. cbn [boundaries norm_ranks nat_ranks num_delta].
  assert (Lt : length (map snd (map cell t) ++ [Z.of_N (n s)]) = num).
  { rewrite app_length, !map_length. cbn [length]. rewrite Ert in Lrs. cbn [length] in Lrs. rewrite app_length in Lrs. cbn [length] in Lrs. lia. }
  split; [rewrite !map_length; auto|]. split; [|split; [|split; [|split; [|split; [|split; [|split; [|split; [|split; [|split]]]]]]]]]; auto.
  - rewrite Ecell. cbn [map nth_error fst cell]. rewrite P0. f_equal. destruct (Nqs 0 Lp) as (q & Q1 & _ & Q2 & Q3 & _). rewrite (nth_error_nth _ _ _ Q1).
    destruct (Nat.eq_dec 0 (L - 1)) as [E|E]; [|apply Q3; auto]. rewrite (Q2 E). destruct H2 as [H2|H2]; [rewrite LL in H2; lia|].
    destruct (made_n _ _ _ _ H) as (En & _). destruct xs as [|x0 [|x1 xs]]; [congruence| |cbn [length] in En; lia].
    destruct M2 as (I1 & _). destruct M4 as (I2 & _). destruct I1 as [<-|[]]. destruct I2 as [<-|[]]. reflexivity.
  - rewrite Ecell. cbn [map]. rewrite map_app. cbn [map].
    assert (Lt' : length (map fst (map cell t)) = num - 1) by (rewrite app_length, !map_length in Lt; cbn [length] in Lt; rewrite !map_length; lia).
    destruct num as [|m]; [lia|]. cbn [nth_error]. rewrite nth_error_app2 by lia. rewrite Lt'. replace (m - (S m - 1)) with 0 by lia. cbn [nth_error fst cell]. rewrite P1. f_equal.
    destruct (Nqs (L - 1) ltac:(lia)) as (q & Q1 & _ & Q2 & _). rewrite (nth_error_nth _ _ _ Q1). apply Q2. reflexivity.
  - rewrite map_map. apply (sorted_map_nth (fun a b => (B2R a <= B2R b)%R)); auto. intros a b Ha Hb Hab. cbn [fst cell].
    apply (Sqs (pos a) (pos b)); [apply PM; auto| |]; apply List.nth_error_nth'; rewrite Lqs; auto.
  - apply Forall_map, Forall_map, Forall_forall. intros r Hr. cbn [fst cell]. destruct (Nqs (pos r) (PL r (Cin r Hr))) as (q & Q1 & Q2 & _). rewrite (nth_error_nth _ _ _ Q1). auto.
  - cbn [length]. rewrite delta_length, Lt. lia.
  - constructor; [lia|]. apply delta_nonneg. exact Zs.
  - cbn [sumZ fold_right]. fold (sumZ (delta_items i 1 (num + 1) 1 (map snd (map cell t) ++ [Z.of_N (n s)]))). rewrite delta_sum; try lia.
    + rewrite last_last. cbn [Nat.eqb]. destruct i; lia.
    + intros E. apply (f_equal (@length Z)) in E. rewrite Lt in E. cbn [length] in E. lia.
Qed.

Theorem kll_partition_refuses_zero : forall K s xs cs cache inclusive, made K s xs cs -> fresh s cache ->
  fst (get_partition_boundaries less ceq zero sort s cache 0 inclusive) = Refused.
Proof.
  intros K s xs cs cache i H HF. destruct xs as [|x0 xs]; [apply (kll_empty_refuses _ _ _ cache H)|].
  destruct (made_ready _ _ _ _ _ H ltac:(discriminate) HF) as (v & l & HV & HI & Et & Hn & HE & HS & HW & HP).
  destruct (made_view less ceq zero sort order sort_perm sort_sorted _ _ _ _ _ _ H HV HI) as (res & nn & Ev & HSo & HPe & HRe & Enn).
  unfold get_partition_boundaries. rewrite HE, HS. unfold vpartition. destruct (N.eqb_spec (total_n v) 0) as [|NE]; [reflexivity|]. rewrite Ev.
  set (L := length res). assert (Lp : 0 < L) by (unfold L; destruct res; [congruence|cbn [length]; lia]).
  set (cw0 := convert_to_cumulative 0 (map snd res)) in *. assert (Lc0 : length cw0 = L) by (unfold cw0; rewrite cum_length, map_length; auto).
  unfold partition_boundaries_writes, wr. cbn [cum_weights quantiles total_n]. rewrite Lc0. destruct (Nat.ltb_spec 0 L); [|lia]. cbn [bindo]. rewrite !upd_length, Lc0. destruct (Nat.ltb_spec (L - 1) L); [|lia]. cbn [bindo].
  rewrite map_length. fold L. destruct (Nat.ltb_spec 0 L); [|lia]. cbn [bindo]. rewrite !upd_length, map_length. fold L. destruct (Nat.ltb_spec (L - 1) L); [|lia]. reflexivity.
Qed.
End Props.

(** ** Non-vacuity: the merged sketch of KllProps (80 items 0..40, k = 8, four levels, 14 retained items) *)
Definition on_case {A} (f : kll (C := Z) -> A) : option A := option_map (fun r => f (fst r)) case_m.
Lemma on_case_some {A} (f : kll (C := Z) -> A) s cs : case_m = Some (s, cs) -> on_case f = Some (f s).
Proof. unfold on_case. intros H. rewrite H. reflexivity. Qed.
Definition shown (a : answer f64) : option spec_float := match a with Ans r => Some (B2SF r) | _ => None end.
Definition ratio (c d : N) : option spec_float := Some (B2SF (norm_rank c d)).
Example rank_case : on_case (fun s => map (fun x => shown (get_rank64 Z.ltb Z.eqb 0%Z isort s None x true)) [(-1); 0; 16; 36; 40]%Z) =
  Some [ratio 0 80; ratio 8 80; ratio 40 80; ratio 80 80; ratio 80 80].
Proof. vm_compute. reflexivity. Qed.
Example quantile_case : on_case (fun s => map (fun c => match get_quantile64 Z.ltb Z.eqb 0%Z isort s None (norm_rank c 80) true with Ans q => Some q | _ => None end) [0; 8; 9; 40; 41; 80]%N) =
  Some [Some 0; Some 0; Some 1; Some 16; Some 22; Some 36]%Z.
Proof. vm_compute. reflexivity. Qed.
Lemma case_facts : on_case (fun s => (option_map (@length _) (iterate 0%Z s), get_min_item s, get_max_item s)) = Some (Some 14, Some 0%Z, Some 40%Z).
Proof. vm_compute. reflexivity. Qed.
Example partition_case : exists s cs l, case_m = Some (s, cs) /\ made Z.ltb 0%Z isort 8 s (fed 60 0 [] ++ fed 20 3 []) cs /\ iterate 0%Z s = Some l /\ length l = 14 /\ n s = 80%N /\
  get_min_item s = Some 0%Z /\ get_max_item s = Some 40%Z.
Proof.
  destruct kll_case_made as (s & cs & E & M & ME). pose proof case_facts as X. rewrite (on_case_some _ s cs E) in X. apply same_some in X.
  destruct (iterate 0%Z s) as [l|] eqn:EI; [|discriminate X]. unfold option_map in X. injection X as X1 X2 X3. unfold measures, fst in ME. injection ME as _ Y _ _.
  exists s, cs, l. split; [exact E|]. split; [exact M|]. split; [exact EI|]. split; [exact X1|]. split; [exact Y|]. split; [exact X2|exact X3].
Qed.
Definition parts (p : answer (partition (C := Z))) := match p with Ans p => Some (boundaries p, nat_ranks p, num_delta p) | _ => None end.
Example partition_case_parts : on_case (fun s => (parts (fst (get_partition_boundaries Z.ltb Z.eqb 0%Z isort s None 4 true)), parts (fst (get_partition_boundaries Z.ltb Z.eqb 0%Z isort s None 3 false)))) =
  Some (Some ([0; 9; 16; 30; 40], [1; 20; 40; 60; 80], [0; 20; 20; 20; 20]), Some ([0; 9; 23; 40], [1; 28; 56; 80], [0; 27; 28; 25]))%Z.
Proof. vm_compute. reflexivity. Qed.

(** ** Refuted: asking for partition boundaries does not change later answers. It does: it writes into the cached view, whose first
    cumulative weight becomes 1 and whose first and last items become the minimum and the maximum. Before, 8 of the 80 items count
    as at most 0 and all 80 as at most 36; afterwards, 1 and 72. *)
Theorem partition_boundaries_change_ranks_refuted : on_case (fun s =>
    let before := get_rank64 Z.ltb Z.eqb 0%Z isort s None in
    let after := get_rank64 Z.ltb Z.eqb 0%Z isort s (snd (get_partition_boundaries Z.ltb Z.eqb 0%Z isort s None 4 true)) in
    [shown (before 0%Z true); shown (after 0%Z true); shown (before 36%Z true); shown (after 36%Z true)]) =
  Some [ratio 8 80; ratio 1 80; ratio 80 80; ratio 72 80].
Proof. vm_compute. reflexivity. Qed.

Print Assumptions natural_rank_recovered.
Print Assumptions natural_rank_close.
Print Assumptions kll_empty_refuses.
Print Assumptions kll_norm_rank.
Print Assumptions kll_norm_rank_monotone.
Print Assumptions kll_norm_rank_inclusive_larger.
Print Assumptions kll_quantile64.
Print Assumptions kll_quantile64_refuses.
Print Assumptions kll_quantile64_monotone.
Print Assumptions kll_quantile_of_rank.
Print Assumptions kll_cdf.
Print Assumptions kll_pmf.
Print Assumptions kll_partition.
Print Assumptions kll_partition_refuses_zero.
