(** * C82: the normalized rank error of the KLL sketch.

    [B2R] is the real number a finite float64 stands for. *)
From Coq Require Import ZArith Bool List Lia Psatz Reals.
From Flocq Require Import Core BinarySingleNaN Relative.
From Verif Require Import Base Bytes FloatModel FloatProofs RankProofs KllModel KllProps BloomSizeProps KllErrModel.
Import ListNotations.
Local Open Scope R_scope.

(** ** Specification *)
(** math.Pow has a relative error of at most 2^-50 for bases from 8 to 2^16 and exponents between 0 and 1. *)
Definition pow_near (fpow : f64 -> f64 -> f64) : Prop := forall x y, is_finite x = true -> is_finite y = true -> 8 <= B2R x <= 2 ^ 16 -> 0 < B2R y < 1 ->
  is_finite (fpow x y) = true /\ Rabs (B2R (fpow x y) - Rpower (B2R x) (B2R y)) <= / 2 ^ 50 * Rpower (B2R x) (B2R y).
(** The published fit: 2.446 / k^0.9433 (double-sided), 2.296 / k^0.9723 (single-sided) *)
Definition coef (pmf : bool) : R := if pmf then 2446 / 1000 else 2296 / 1000.
Definition power (pmf : bool) : R := if pmf then 9433 / 10000 else 9723 / 10000.
Definition fit (pmf : bool) (k : N) : R := coef pmf / Rpower (valN k) (power pmf).

(** ** Proofs *)
Definition fc (pmf : bool) : f64 := if pmf then pmf_coef else cdf_coef.
Definition fx (pmf : bool) : f64 := if pmf then pmf_exp else cdf_exp.
Lemma fc_spec p : is_finite (fc p) = true /\ 2 <= B2R (fc p) <= 3 /\ exists u, near (/ 2 ^ 52) u /\ B2R (fc p) = coef p * u.
Proof.
  destruct p; (split; [reflexivity|]); [assert (V : B2R (fc true) = 5507902344274117 / 2251799813685248) by (vm_compute; lra)|assert (V : B2R (fc false) = 5170132372221329 / 2251799813685248) by (vm_compute; lra)]; rewrite V; (split; [lra|]);
  [exists (5507902344274117 / 2251799813685248 / coef true)|exists (5170132372221329 / 2251799813685248 / coef false)]; unfold coef, near; cbn [pow]; split; lra.
Qed.
Lemma fx_spec p : is_finite (fx p) = true /\ 0 < B2R (fx p) < 1 /\ Rabs (B2R (fx p) - power p) <= / 2 ^ 54.
Proof.
  destruct p; (split; [reflexivity|]); [assert (V : B2R (fx true) = 8496491056997178 / 9007199254740992) by (vm_compute; lra)|assert (V : B2R (fx false) = 8757699835384667 / 9007199254740992) by (vm_compute; lra)]; rewrite V; (split; [lra|]);
  unfold power; apply Rabs_le; cbn [pow]; split; lra.
Qed.
Lemma exp_small t e : Rabs t <= e -> e <= / 4 -> near (2 * e) (exp t).
Proof.
  intros H E. apply Rabs_le_inv in H. unfold near. pose proof (exp_ineq1_le t). pose proof (exp_ineq1_le (- t)) as B. rewrite exp_Ropp in B. pose proof (exp_pos t) as P. split; [lra|].
  assert (Q : exp t * / exp t = 1) by (apply Rinv_r; lra). assert (exp t * (1 - e) <= 1) by (rewrite <- Q; apply Rmult_le_compat_l; lra). assert ((1 + 2 * e) * (1 - e) >= 1) by nra. nra.
Qed.
Lemma k_range k : (8 <= k <= 65535)%N -> 8 <= valN k <= 65535 /\ is_finite (f_of_Z (Z.of_N k)) = true /\ B2R (f_of_Z (Z.of_N k)) = valN k.
Proof.
  intros H. unfold valN. split; [split; [apply (IZR_le 8)|apply (IZR_le _ 65535)]; lia|]. destruct (of_Z_val (Z.of_N k)) as (A & B); [lia|]. auto.
Qed.
Lemma ln_mono x y : 0 < x -> x <= y -> ln x <= ln y.
Proof. intros H [C| ->]; [left; apply ln_increasing; auto|right; auto]. Qed.
Lemma ln_k x : 8 <= x <= 65535 -> 0 < ln x <= 16.
Proof.
  intros H. split; [rewrite <- ln_1; apply ln_increasing; lra|]. assert (L : ln x <= ln (2 ^ 16)) by (apply ln_mono; cbn [pow]; lra).
  rewrite ln_pow in L by lra. pose proof ln2_range. cbn [INR] in L. lra.
Qed.
(** 4 <= k^x <= 2^16 *)
Lemma power_range p x : 8 <= x <= 65535 -> 4 <= Rpower x (power p) <= 65535.
Proof.
  intros H. assert (L8 : ln 8 = 3 * ln 2) by (replace 8 with (2 ^ 3) by ring; rewrite ln_pow by lra; cbn [INR]; lra). assert (L : ln 8 <= ln x) by (apply ln_mono; lra). pose proof ln2_range as R.
  assert (P : 2 / 3 <= power p <= 1) by (destruct p; unfold power; lra). split.
  - replace 4 with (exp (2 * ln 2)) by (replace (2 * ln 2) with (ln 2 + ln 2) by ring; rewrite exp_plus, !exp_ln by lra; lra). unfold Rpower. destruct (Rle_lt_or_eq_dec (2 * ln 2) (power p * ln x)) as [C|C]; [nra|left; apply exp_increasing; auto|rewrite C; lra].
  - apply Rle_trans with x; [|lra]. rewrite <- (Rpower_1 x) at 2 by lra. apply Rle_Rpower; lra.
Qed.
Lemma power_float p x : 8 <= x <= 65535 -> exists u, near (/ 2 ^ 49) u /\ Rpower x (B2R (fx p)) = Rpower x (power p) * u.
Proof.
  intros H. destruct (fx_spec p) as (_ & _ & D). set (d := B2R (fx p) - power p) in *. pose proof (ln_k x H) as L. exists (exp (d * ln x)). split.
  - assert (E : near (2 * (/ 2 ^ 54 * 16)) (exp (d * ln x))). { apply exp_small; [|cbn [pow]; lra]. rewrite Rabs_mult, (Rabs_pos_eq (ln x)) by lra. apply Rmult_le_compat; try lra. apply Rabs_pos. }
    eapply near_weak; [|exact E]. cbn [pow]. lra.
  - unfold Rpower. rewrite <- exp_plus. f_equal. unfold d. ring.
Qed.
Lemma err_q fpow k p : pow_near fpow -> (8 <= k <= 65535)%N -> is_finite (rank_error fpow k p) = true /\ exists u, near (/ 2 ^ 48) u /\ B2R (rank_error fpow k p) = fit p k * u.
Proof.
  intros HP HK. destruct (k_range k HK) as (Rk & Fk & Ek). destruct (fc_spec p) as (Fc & Rc & u1 & N1 & E1). destruct (fx_spec p) as (Fx & Rx & _). destruct (power_float p (valN k) Rk) as (u2 & N2 & E2). pose proof (power_range p (valN k) Rk) as Rp.
  destruct (HP (f_of_Z (Z.of_N k)) (fx p) Fk Fx) as (Fp & Ep); [rewrite Ek; cbn [pow]; lra|auto|]. rewrite Ek, E2 in Ep. unfold fit. set (y := Rpower (valN k) (power p)) in *. set (q := fpow _ _) in *. assert (ER : rank_error fpow k p = fdiv (fc p) q) by (destruct p; reflexivity). clearbody q y.
  assert (S49 : 0 < / 2 ^ 49 <= / 1024) by (cbn [pow]; lra). assert (S50 : 0 < / 2 ^ 50 <= / 1024) by (cbn [pow]; lra). assert (V2 : 1 - / 1024 <= u2 <= 1 + / 1024) by (unfold near in N2; lra).
  assert (Y : 0 < y * u2) by nra. set (u3 := B2R q / (y * u2)). assert (E3 : B2R q = y * u2 * u3) by (unfold u3; field; split; lra). rewrite E3 in Ep.
  assert (N3 : near (/ 2 ^ 50) u3). { apply Rabs_le_inv in Ep. unfold near. split; apply Rmult_le_reg_l with (y * u2); auto; nra. }
  assert (V3 : 1 - / 1024 <= u3 <= 1 + / 1024) by (unfold near in N3; lra). assert (V23 : 99 / 100 <= u2 * u3 <= 101 / 100) by nra.
  assert (Q : 3 <= B2R q <= 2 ^ 17). { rewrite E3, Rmult_assoc. cbn [pow]. nra. }
  assert (I : / 2 ^ 17 <= / B2R q <= / 3) by (split; apply Rinv_le; lra). assert (S17 : 0 < / 2 ^ 17) by (cbn [pow]; lra).
  assert (D : / 2 ^ 17 <= B2R (fc p) / B2R q <= 1). { unfold Rdiv. split; [replace (/ 2 ^ 17) with (1 * / 2 ^ 17) by lra; apply Rmult_le_compat; lra|replace 1 with (3 * / 3) by lra; apply Rmult_le_compat; lra]. }
  destruct (div_spec (fc p) q 0) as (Ed & Fd & _); [lia|auto|lra|rewrite Rabs_pos_eq by lra; change (bpow radix2 0) with 1; lra|].
  destruct (near_rnd (B2R (fc p) / B2R q)) as (u4 & N4 & E4); [apply (small_bpow (-17)); [lia|replace (bpow radix2 (-17)) with (/ 2 ^ 17) by (cbn; lra); lra]|].
  rewrite ER. split; auto. exists (u1 * (/ u2 * / u3) * u4). split.
  - assert (I2 := near_inv (/ 2 ^ 49) u2 ltac:(lra) N2). apply (near_weak _ (/ 2 ^ 49 + / 2 ^ 60)) in I2; [|cbn [pow]; lra]. assert (I3 := near_inv (/ 2 ^ 50) u3 ltac:(lra) N3). apply (near_weak _ (/ 2 ^ 50 + / 2 ^ 60)) in I3; [|cbn [pow]; lra].
    assert (H := near_mul (/ 2 ^ 49 + / 2 ^ 60) (/ 2 ^ 50 + / 2 ^ 60) (/ u2) (/ u3) ltac:(cbn [pow]; lra) ltac:(cbn [pow]; lra) I2 I3). apply (near_weak _ (/ 2 ^ 49 + / 2 ^ 50 + / 2 ^ 58)) in H; [|cbn [pow]; lra].
    assert (H2 := near_mul (/ 2 ^ 52) (/ 2 ^ 49 + / 2 ^ 50 + / 2 ^ 58) u1 (/ u2 * / u3) ltac:(cbn [pow]; lra) ltac:(cbn [pow]; lra) N1 H). apply (near_weak _ (/ 2 ^ 49 + / 2 ^ 50 + / 2 ^ 52 + / 2 ^ 57)) in H2; [|cbn [pow]; lra].
    assert (H3 := near_mul (/ 2 ^ 49 + / 2 ^ 50 + / 2 ^ 52 + / 2 ^ 57) (/ 2 ^ 53) (u1 * (/ u2 * / u3)) u4 ltac:(cbn [pow]; lra) ltac:(cbn [pow]; lra) H2 N4). eapply near_weak; [|exact H3]. cbn [pow]. lra.
  - rewrite Ed, E4, E1, E3. field. repeat split; lra.
Qed.
Lemma fit_range p k : (8 <= k <= 65535)%N -> 0 < fit p k <= 62 / 100.
Proof.
  intros HK. destruct (k_range k HK) as (Rk & _). pose proof (power_range p (valN k) Rk) as R. unfold fit, Rdiv. set (y := Rpower _ _) in *. assert (I : 0 < / y <= / 4) by (split; [apply Rinv_0_lt_compat; lra|apply Rinv_le; lra]).
  assert (2 <= coef p <= 248 / 100) by (destruct p; unfold coef; lra). split; nra.
Qed.
(** One more in k lowers the fit by a factor of at least 1 + 2^-18. *)
Lemma fit_step p a b : (8 <= a)%N -> (a < b)%N -> (b <= 65535)%N -> fit p b * (1 + / 262144) <= fit p a.
Proof.
  intros HA HL HB. destruct (k_range a ltac:(lia)) as (Ra & _). destruct (k_range b ltac:(lia)) as (Rb & _). assert (S : valN a + 1 <= valN b) by (unfold valN; rewrite <- plus_IZR; apply IZR_le; lia). set (x := valN a) in *. set (y := valN b) in *.
  assert (L : / 65536 <= ln y - ln x). { pose proof (exp_ineq1_le (- (ln y - ln x))) as Z. replace (- (ln y - ln x)) with (ln x + - ln y) in Z at 2 by ring. rewrite exp_plus, exp_Ropp, !exp_ln in Z by lra.
    assert (x * / y <= 1 - / 65536); [|lra]. apply Rmult_le_reg_r with y; [lra|]. rewrite Rmult_assoc, Rinv_l by lra. nra. }
  assert (P : / 2 <= power p <= 1) by (destruct p; unfold power; lra). assert (E : Rpower x (power p) * (1 + / 262144) <= Rpower y (power p)).
  { unfold Rpower. replace (power p * ln y) with (power p * ln x + power p * (ln y - ln x)) by ring. rewrite exp_plus. apply Rmult_le_compat_l; [left; apply exp_pos|]. pose proof (exp_ineq1_le (power p * (ln y - ln x))). nra. }
  pose proof (power_range p x Ra) as R1. pose proof (power_range p y Rb) as R2. unfold fit. fold x y. set (X := Rpower x _) in *. set (Y := Rpower y _) in *. assert (C : 0 < coef p) by (destruct p; unfold coef; lra).
  apply Rmult_le_reg_r with (X * Y); [nra|]. replace (coef p / Y * (1 + / 262144) * (X * Y)) with (coef p * (X * (1 + / 262144))) by (field; lra). replace (coef p / X * (X * Y)) with (coef p * Y) by (field; lra). apply Rmult_le_compat_l; lra.
Qed.
Lemma err_order fpow p a b : pow_near fpow -> (8 <= a)%N -> (a < b)%N -> (b <= 65535)%N -> flt (rank_error fpow b p) (rank_error fpow a p) = true.
Proof.
  intros HP HA HL HB. destruct (err_q fpow a p HP ltac:(lia)) as (Fa & u & Nu & Ea). destruct (err_q fpow b p HP ltac:(lia)) as (Fb & v & Nv & Eb). apply flt_spec; auto. rewrite Ea, Eb. pose proof (fit_step p a b HA HL HB) as S. pose proof (fit_range p b ltac:(lia)) as R.
  unfold near in *. assert (/ 2 ^ 48 <= / 4294967296) by (cbn [pow]; lra). assert (0 < / 2 ^ 48) by (cbn [pow]; lra). set (X := fit p a) in *. set (Y := fit p b) in *.
  apply Rle_lt_trans with (Y * (1 + / 4294967296)); [apply Rmult_le_compat_l; lra|]. apply Rlt_le_trans with (Y * (1 + / 262144) * (1 - / 4294967296)); [nra|]. apply Rmult_le_compat; nra.
Qed.

Ltac step H := match type of H with
  | match ?x with _ => _ end = Some _ => destruct x eqn:?; try discriminate H
  | (if ?x then _ else _) = Some _ => destruct x eqn:?; try discriminate H
  | (let _ := _ in _) = Some _ => cbv zeta in H end.
Section History.
Context {C : Type}.
Variables (less : C -> C -> bool) (zero : C) (sort : list C -> list C).
Lemma top_k (s s' : kll (C := C)) : add_empty_top_level zero s = Some s' -> min_k s' = min_k s /\ k s' = k s.
Proof. unfold add_empty_top_level. intros H. unfold bindo in H. cbv zeta in H. repeat step H. all: injection H as <-; auto. Qed.
Lemma compact_k coin (s s' : kll (C := C)) l r r' : compact_level less sort coin s l r = Some (s', r') -> min_k s' = min_k s /\ k s' = k s.
Proof. unfold compact_level. intros H. unfold bindo in H. cbv zeta in H. repeat step H. all: injection H as <- _; auto. Qed.
Lemma update_k coin (s s' : kll (C := C)) r r' x : kll_update less zero sort coin s r x = Some (s', r') -> min_k s' = min_k s /\ k s' = k s.
Proof.
  unfold kll_update, bindo. intros H. cbv zeta in H. step H. set (s0 := mkKll _ _ _ _ _ _ _ _ _ _ _) in *. assert (K0 : min_k s0 = min_k s /\ k s0 = k s) by (split; reflexivity). clearbody s0.
  match type of H with match ?e with _ => _ end = _ => destruct e as [[s1 r1]|] eqn:E; [|discriminate] end.
  assert (K1 : min_k s1 = min_k s0 /\ k s1 = k s0).
  { destruct (_ =? 0)%nat in E; [|injection E as <- _; auto]. unfold compress_while_updating, bindo in E. step E. match type of E with match ?e with _ => _ end = _ => destruct e as [s2|] eqn:E2; [|discriminate] end. destruct (_ =? _)%nat in E2; [apply top_k in E2|injection E2 as <-]; apply compact_k in E; intuition congruence. }
  repeat step H. injection H as <- _. cbn [min_k k]. intuition congruence.
Qed.
Lemma updates_k coin l : forall (s s' : kll (C := C)) r r', update_all less zero sort coin s r l = Some (s', r') -> min_k s' = min_k s /\ k s' = k s.
Proof.
  induction l as [|x l IH]; cbn [update_all]; unfold bindo; intros s s' r r' H; [injection H as <- _; auto|]. destruct (kll_update _ _ _ _ _ _ _) as [[s1 r1]|] eqn:E; [|discriminate]. apply update_k in E. apply IH in H. intuition congruence.
Qed.
Lemma merge_k coin (s o s' : kll (C := C)) r r' : kll_merge less zero sort coin s o r = Some (s', r') ->
  min_k s' = (if negb (is_empty o) && is_estimation_mode o then N.min (min_k s) (min_k o) else min_k s) /\ k s' = k s.
Proof.
  unfold kll_merge, bindo. destruct (is_empty o); cbn [negb andb]; [intros H; injection H as <- _; auto|]. intros H. cbv zeta in H. do 3 step H.
  match type of H with match ?e with _ => _ end = _ => destruct e as [[s1 r1]|] eqn:E; [|discriminate] end. apply updates_k in E.
  match type of H with match ?e with _ => _ end = _ => destruct e as [[[[nl lv] it] r2]|] eqn:E2; [|discriminate] end. clear E2.
  destruct (if is_empty s then _ else _) as [[mn mx] hm]. injection H as <- _. cbn [min_k k]. destruct (is_estimation_mode o); intuition congruence.
Qed.
Lemma made_k K (s : kll (C := C)) xs cs : made less zero sort K s xs cs -> (8 <= min_k s <= k s)%N /\ (k s <= 65535)%N.
Proof.
  induction 1 as [k0 m0 s E|s xs cs coin x s' new _ IH _ E|s xs cs o ys ds coin s' new _ IH1 _ IH2 _ E|s xs cs _ IH].
  - unfold kll_new in E. destruct (N.ltb_spec k0 8); [discriminate|]. destruct (N.ltb_spec 65535 k0); [discriminate|]. injection E as <-. cbn [min_k k]. lia.
  - apply update_k in E. destruct E as (-> & ->). auto.
  - apply merge_k in E. destruct E as (-> & ->). destruct (_ && _); lia.
  - exact IH.
Qed.

(** ** Theorems *)
(** For every sketch with a history: the answer is the published fit for some k between 8 and 65535, up to a relative error of
    2^-48; it is a fraction strictly between zero and one, and the double-sided error is larger than the single-sided one. *)
Theorem kll_rank_error_value fpow K (s : kll (C := C)) xs cs pmf : pow_near fpow -> made less zero sort K s xs cs ->
  is_finite (get_rank_error fpow s pmf) = true /\ 0 < B2R (get_rank_error fpow s pmf) < 1 /\ flt (get_rank_error fpow s false) (get_rank_error fpow s true) = true /\
  exists k0, (8 <= k0 <= k s)%N /\ Rabs (B2R (get_rank_error fpow s pmf) - fit pmf k0) <= / 2 ^ 48 * fit pmf k0.
Proof.
  intros HP HM. destruct (made_k _ _ _ _ HM) as (A & B). assert (HK : (8 <= min_k s <= 65535)%N) by lia. unfold get_rank_error. assert (S : 0 < / 2 ^ 48 <= / 4294967296) by (cbn [pow]; lra).
  destruct (err_q fpow _ pmf HP HK) as (F & u & N & E). pose proof (fit_range pmf _ HK) as R. unfold near in N. split; auto. split; [rewrite E; split; nra|]. split.
  - destruct (err_q fpow _ true HP HK) as (F1 & u1 & N1 & E1). destruct (err_q fpow _ false HP HK) as (F2 & u2 & N2 & E2). apply flt_spec; auto. rewrite E1, E2. unfold near in *. destruct (k_range _ HK) as (Rk & _).
    assert (Q : fit false (min_k s) * (106 / 100) <= fit true (min_k s)). { unfold fit. set (x := valN (min_k s)) in *. assert (L : Rpower x (power true) <= Rpower x (power false)) by (apply Rle_Rpower; unfold power; lra). pose proof (power_range true x Rk) as R1. set (X := Rpower x (power true)) in *. set (Y := Rpower x (power false)) in *. clearbody X Y. unfold coef, Rdiv. assert (/ Y <= / X) by (apply Rinv_le; lra). assert (0 < / Y) by (apply Rinv_0_lt_compat; lra). lra. }
    pose proof (fit_range false _ HK). set (X := fit true _) in *. set (Y := fit false _) in *. clearbody X Y. assert (Y * u2 <= Y * (1 + / 4294967296)) by (apply Rmult_le_compat_l; lra). assert (X * (1 - / 4294967296) <= X * u1) by (apply Rmult_le_compat_l; lra). lra.
  - exists (min_k s). split; [lia|]. rewrite E. replace (fit pmf (min_k s) * u - fit pmf (min_k s)) with (fit pmf (min_k s) * (u - 1)) by ring. rewrite Rabs_mult, Rabs_pos_eq, Rmult_comm by lra. apply Rmult_le_compat_r; [lra|]. apply Rabs_le. lra.
Qed.
(** A new sketch answers the fit for its own k, and updates do not change the answer. *)
Theorem kll_rank_error_new fpow k0 m0 (s : kll (C := C)) pmf : pow_near fpow -> kll_new zero k0 m0 = Some s -> Rabs (B2R (get_rank_error fpow s pmf) - fit pmf k0) <= / 2 ^ 48 * fit pmf k0.
Proof.
  intros HP E. unfold kll_new in E. destruct (N.ltb_spec k0 8); [discriminate|]. destruct (N.ltb_spec 65535 k0); [discriminate|]. injection E as <-. unfold get_rank_error. cbn [min_k]. cbn [orb] in *.
  destruct (err_q fpow k0 pmf HP ltac:(lia)) as (F & u & N & Q). rewrite Q. pose proof (fit_range pmf k0 ltac:(lia)) as R. unfold near in N. replace (fit pmf k0 * u - fit pmf k0) with (fit pmf k0 * (u - 1)) by ring. rewrite Rabs_mult, Rabs_pos_eq, Rmult_comm by lra. apply Rmult_le_compat_r; [lra|]. apply Rabs_le. lra.
Qed.
Theorem kll_rank_error_update fpow coin (s s' : kll (C := C)) r r' x pmf : kll_update less zero sort coin s r x = Some (s', r') -> get_rank_error fpow s' pmf = get_rank_error fpow s pmf.
Proof. intros H. apply update_k in H. unfold get_rank_error. destruct H as (-> & _). auto. Qed.
(** A merge answers the larger of the two errors when the other sketch is estimating, and otherwise keeps its own. *)
Theorem kll_rank_error_merge fpow K coin (s o s' : kll (C := C)) xs cs ys ds r r' pmf : pow_near fpow -> made less zero sort K s xs cs -> made less zero sort K o ys ds ->
  kll_merge less zero sort coin s o r = Some (s', r') ->
  get_rank_error fpow s' pmf = if negb (is_empty o) && is_estimation_mode o && flt (get_rank_error fpow s pmf) (get_rank_error fpow o pmf) then get_rank_error fpow o pmf else get_rank_error fpow s pmf.
Proof.
  intros HP HS HO HM. apply merge_k in HM. destruct HM as (E & _). destruct (made_k _ _ _ _ HS) as (A1 & B1). destruct (made_k _ _ _ _ HO) as (A2 & B2). unfold get_rank_error. rewrite E. destruct (negb _ && _); cbn [andb]; auto.
  destruct (N.lt_trichotomy (min_k o) (min_k s)) as [L|[L|L]].
  - rewrite err_order by (auto; lia). f_equal. lia.
  - rewrite L, N.min_id. destruct (flt _ _); auto.
  - replace (N.min (min_k s) (min_k o)) with (min_k s) by lia. destruct (flt (rank_error fpow (min_k s) pmf) _) eqn:Q; auto. exfalso.
    assert (W := err_order fpow pmf (min_k s) (min_k o) HP ltac:(lia) L ltac:(lia)). destruct (err_q fpow (min_k s) pmf HP ltac:(lia)) as (F1 & _). destruct (err_q fpow (min_k o) pmf HP ltac:(lia)) as (F2 & _). apply flt_spec in W, Q; auto. lra.
Qed.
(** A larger k gives a smaller error. *)
Theorem kll_rank_error_larger_k fpow k1 m1 k2 m2 (s1 s2 : kll (C := C)) pmf : pow_near fpow -> kll_new zero k1 m1 = Some s1 -> kll_new zero k2 m2 = Some s2 -> (k1 < k2)%N -> flt (get_rank_error fpow s2 pmf) (get_rank_error fpow s1 pmf) = true.
Proof.
  intros HP E1 E2 L. unfold kll_new in *. destruct (N.ltb_spec k1 8); [discriminate|]. destruct (N.ltb_spec 65535 k1); [discriminate|]. injection E1 as <-. destruct (N.ltb_spec k2 8); [discriminate|]. destruct (N.ltb_spec 65535 k2); [discriminate|]. injection E2 as <-. apply err_order; auto.
Qed.
End History.
(** Reset does not forget what was merged: a sketch of k = 200 that took in an estimating sketch of k = 8 answers, after Reset, a
    larger rank error than a new sketch of k = 200. *)
Fixpoint insert (x : nat) (l : list nat) : list nat := match l with [] => [x] | y :: t => if (x <=? y)%nat then x :: l else y :: insert x t end.
Definition isort (l : list nat) : list nat := fold_right insert [] l.
Theorem kll_reset_keeps_rank_error_refuted fpow : pow_near fpow -> exists s0 o0 o s r1 r2,
  kll_new 0%nat 200 8 = Some s0 /\ kll_new 0%nat 8 8 = Some o0 /\ update_all Nat.ltb 0%nat isort (fun _ => true) o0 [] (seq 0 20) = Some (o, r1) /\
  kll_merge Nat.ltb 0%nat isort (fun _ => true) s0 o [] = Some (s, r2) /\ is_empty (kll_reset 0%nat s) = true /\
  forall pmf, flt (get_rank_error fpow s0 pmf) (get_rank_error fpow (kll_reset 0%nat s) pmf) = true.
Proof.
  intros HP. do 6 eexists. split; [reflexivity|]. split; [reflexivity|]. split; [vm_compute; reflexivity|]. split; [vm_compute; reflexivity|]. split; [reflexivity|]. intros pmf. unfold get_rank_error. cbn [kll_reset min_k]. apply err_order; auto; lia.
Qed.

(** ** Concrete cases *)
(** The correctly rounded power meets [pow_near]. *)
Definition rounded_pow (x y : f64) : f64 :=
  let z := rnd (Rpower (B2R x) (B2R y)) in
  binary_normalize 53 1024 _ _ mode_NE (Ztrunc (scaled_mantissa radix2 (SpecFloat.fexp 53 1024) z)) (cexp radix2 (SpecFloat.fexp 53 1024) z) false.
Lemma rounded_pow_near : pow_near rounded_pow.
Proof.
  intros x y Fx Fy Hx Hy. unfold rounded_pow. set (l := Rpower _ _) in *. assert (L : 1 <= l <= 2 ^ 16). { split; [rewrite <- (Rpower_O (B2R x)) by lra; apply Rle_Rpower; lra|]. apply Rle_trans with (B2R x); [|lra]. rewrite <- (Rpower_1 (B2R x)) by lra. apply Rle_Rpower; lra. }
  destruct (near_rnd l) as (u & Nu & E). { apply (small_bpow 0); [lia|]. change (bpow radix2 0) with 1. lra. } assert (S : 0 < / 2 ^ 53 <= / 2 ^ 50) by (cbn [pow]; lra). assert (S50 : / 2 ^ 50 <= 1) by (cbn [pow]; lra). unfold near in Nu.
  pose proof (binary_normalize_correct 53 1024 _ _ mode_NE (Ztrunc (scaled_mantissa radix2 (SpecFloat.fexp 53 1024) (rnd l))) (cexp radix2 (SpecFloat.fexp 53 1024) (rnd l)) false) as Q. cbv zeta in Q |- *.
  assert (G : fmt (rnd l)) by (apply generic_format_round; typeclasses eauto). unfold generic_format in G. rewrite <- G in Q. rewrite (rnd_id (rnd l)) in Q by (apply generic_format_round; typeclasses eauto).
  rewrite (big_lt (rnd l) 17) in Q; [|lia|].
  - destruct Q as (C1 & C2 & _). split; [exact C2|]. rewrite C1, E. replace (l * u - l) with (l * (u - 1)) by ring. rewrite Rabs_mult, (Rabs_pos_eq l), Rmult_comm by lra. apply Rmult_le_compat_r; [lra|]. apply Rabs_le. lra.
  - rewrite E, Rabs_mult, !Rabs_pos_eq by lra. replace (bpow radix2 17) with (2 ^ 16 * 2) by (cbn; lra). apply Rmult_le_compat; lra.
Qed.
(** Twenty updates of a sketch of k = 8 make it estimating; a sketch of k = 200 can take it in. *)
Fixpoint feed (s : kll (C := nat)) (l : list nat) : option kll :=
  match l with [] => Some s | x :: t => if (n s + 1 <? 2 ^ 60)%N then do p <- kll_update Nat.ltb 0%nat isort (fun _ => true) s [] x; feed (fst p) t else None end.
Lemma feed_made K l : forall s s' xs cs, made Nat.ltb 0%nat isort K s xs cs -> feed s l = Some s' -> exists ys ds, made Nat.ltb 0%nat isort K s' ys ds.
Proof.
  induction l as [|x l IH]; cbn [feed]; intros s s' xs cs HM H; [injection H as <-; eauto|]. destruct (N.ltb_spec (n s + 1) (2 ^ 60)); [|discriminate]. unfold bindo in H. destruct (kll_update _ _ _ _ _ _ _) as [[s1 r1]|] eqn:E; [|discriminate].
  eapply IH; [|exact H]. cbn [fst]. eapply made_update; eauto.
Qed.
Definition ex_new (k0 : N) : kll := match kll_new 0%nat k0 8 with Some s => s | None => mkKll 0 0 0 0 false 0 [] [] 0%nat 0%nat false end.
Definition ex_fed (k0 : N) (l : list nat) : kll := match feed (ex_new k0) l with Some s => s | None => ex_new k0 end.
Example ex_history : (exists xs cs, made Nat.ltb 0%nat isort 8 (ex_fed 200 (seq 0 20)) xs cs) /\ (exists ys ds, made Nat.ltb 0%nat isort 8 (ex_fed 8 (seq 0 20)) ys ds) /\
  is_empty (ex_fed 8 (seq 0 20)) = false /\ is_estimation_mode (ex_fed 8 (seq 0 20)) = true /\ exists s' r, kll_merge Nat.ltb 0%nat isort (fun _ => true) (ex_fed 200 (seq 0 20)) (ex_fed 8 (seq 0 20)) [] = Some (s', r).
Proof.
  assert (M : forall k0 l, (8 <= k0 <= 65535)%N -> exists xs cs, made Nat.ltb 0%nat isort 8 (ex_fed k0 l) xs cs).
  { intros k0 l H. assert (M0 : made Nat.ltb 0%nat isort 8 (ex_new k0) [] []). { apply (made_new _ _ _ _ k0 8); try lia. unfold ex_new, kll_new. destruct (N.ltb_spec k0 8); [lia|]. destruct (N.ltb_spec 65535 k0); [lia|]. reflexivity. }
    unfold ex_fed. destruct (feed (ex_new k0) l) eqn:E; [eapply feed_made; eauto|eauto]. }
  split; [apply M; lia|]. split; [apply M; lia|]. split; [vm_compute; reflexivity|]. split; [vm_compute; reflexivity|]. do 2 eexists. vm_compute. reflexivity.
Qed.
Print Assumptions kll_rank_error_value.
Print Assumptions kll_rank_error_merge.
Print Assumptions kll_reset_keeps_rank_error_refuted.
