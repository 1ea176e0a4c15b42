(** * Facts on binary64: order, bounds and monotonicity of the operations. *)
From Coq Require Import ZArith Reals Bool Psatz.
From Flocq Require Import Core Relative BinarySingleNaN.
From Verif Require Import FloatModel.
Local Open Scope R_scope.

Notation rnd := (round radix2 (SpecFloat.fexp 53 1024) (round_mode mode_NE)).
Notation fmt := (generic_format radix2 (SpecFloat.fexp 53 1024)).

#[global] Instance fexp_valid : Valid_exp (SpecFloat.fexp 53 1024) := fexp_correct 53 1024 prec64.
#[global] Instance rnd_valid : Valid_rnd (round_mode mode_NE) := valid_rnd_round_mode mode_NE.

Lemma rnd_le x y : x <= y -> rnd x <= rnd y.
Proof. apply round_le; typeclasses eauto. Qed.
Lemma rnd_id x : fmt x -> rnd x = x.
Proof. apply round_generic; typeclasses eauto. Qed.
Lemma fmt_B (x : f64) : fmt (B2R x).
Proof. apply generic_format_B2R. Qed.

Lemma fmt_bpow e : (-1074 <= e)%Z -> fmt (bpow radix2 e).
Proof.
  intros H. apply generic_format_bpow. unfold SpecFloat.fexp, SpecFloat.emin. apply Z.max_lub; lia.
Qed.
Lemma fmt_0 : fmt 0. Proof. apply generic_format_0. Qed.
Lemma fmt_IZR z : (Z.abs z <= 2 ^ 53)%Z -> fmt (IZR z).
Proof.
  intros H. destruct (Z.eq_dec (Z.abs z) (2 ^ 53)) as [E|E].
  - assert (C : z = (2 ^ 53)%Z \/ z = (- 2 ^ 53)%Z) by lia. destruct C as [->| ->].
    + change (IZR (2 ^ 53)) with (bpow radix2 53). apply fmt_bpow. lia.
    + change (- 2 ^ 53)%Z with (- (2 ^ 53))%Z. rewrite opp_IZR. apply generic_format_opp. change (IZR (2 ^ 53)) with (bpow radix2 53). apply fmt_bpow. lia.
  - apply generic_format_FLT with (prec := 53%Z) (emin := (-1074)%Z).
    apply (FLT_spec radix2 (-1074) 53 (IZR z) (Float radix2 z 0)).
    + unfold F2R. cbn [Fnum Fexp bpow]. lra.
    + cbn [Fnum]. change (Z.pow_pos 2 53) with (2 ^ 53)%Z. change (Zpower radix2 53) with (2 ^ 53)%Z. lia.
    + cbn [Fexp]. lia.
Qed.

Lemma rnd_abs_le x e : (-1074 <= e)%Z -> Rabs x <= bpow radix2 e -> Rabs (rnd x) <= bpow radix2 e.
Proof. intros He H. apply abs_round_le_generic; auto; try typeclasses eauto. apply fmt_bpow; auto. Qed.
Lemma rnd_ge x y : fmt x -> x <= y -> x <= rnd y.
Proof. intros F H. apply round_ge_generic; auto; typeclasses eauto. Qed.
Lemma rnd_le_gen x y : fmt y -> x <= y -> rnd x <= y.
Proof. intros F H. apply round_le_generic; auto; typeclasses eauto. Qed.

Lemma big_lt x e : (e < 1024)%Z -> Rabs x <= bpow radix2 e -> Rlt_bool (Rabs x) (bpow radix2 1024) = true.
Proof. intros He H. apply Rlt_bool_true. eapply Rle_lt_trans; [exact H|]. apply bpow_lt. exact He. Qed.

(** Bounded results: the value is the rounded exact one and the result is finite. *)
Lemma of_Z_spec z e : (0 <= e < 1024)%Z -> (Z.abs z <= 2 ^ e)%Z ->
  B2R (f_of_Z z) = rnd (IZR z) /\ is_finite (f_of_Z z) = true /\ Rabs (B2R (f_of_Z z)) <= bpow radix2 e.
Proof.
  intros He H. pose proof (binary_normalize_correct 53 1024 _ _ mode_NE z 0 false) as C. cbv zeta in C.
  assert (X : F2R (Float radix2 z 0) = IZR z) by (unfold F2R; cbn [Fnum Fexp bpow]; lra). rewrite X in C.
  assert (B : Rabs (rnd (IZR z)) <= bpow radix2 e).
  { apply rnd_abs_le; [lia|]. rewrite <- abs_IZR. rewrite <- IZR_Zpower by lia. apply IZR_le. exact H. }
  rewrite (big_lt _ e) in C by (auto; lia). destruct C as (C1 & C2 & _). unfold f_of_Z. rewrite C1. auto.
Qed.

Lemma add_spec (x y : f64) e : (-1074 <= e < 1024)%Z -> is_finite x = true -> is_finite y = true -> Rabs (B2R x + B2R y) <= bpow radix2 e ->
  B2R (fadd x y) = rnd (B2R x + B2R y) /\ is_finite (fadd x y) = true /\ Rabs (B2R (fadd x y)) <= bpow radix2 e.
Proof.
  intros He Fx Fy H. pose proof (Bplus_correct 53 1024 _ _ mode_NE x y Fx Fy) as C.
  assert (B : Rabs (rnd (B2R x + B2R y)) <= bpow radix2 e) by (apply rnd_abs_le; [lia|exact H]).
  rewrite (big_lt _ e) in C by (auto; lia). destruct C as (C1 & C2 & _). unfold fadd. rewrite C1. auto.
Qed.
Lemma sub_spec (x y : f64) e : (-1074 <= e < 1024)%Z -> is_finite x = true -> is_finite y = true -> Rabs (B2R x - B2R y) <= bpow radix2 e ->
  B2R (fsub x y) = rnd (B2R x - B2R y) /\ is_finite (fsub x y) = true /\ Rabs (B2R (fsub x y)) <= bpow radix2 e.
Proof.
  intros He Fx Fy H. pose proof (Bminus_correct 53 1024 _ _ mode_NE x y Fx Fy) as C.
  assert (B : Rabs (rnd (B2R x - B2R y)) <= bpow radix2 e) by (apply rnd_abs_le; [lia|exact H]).
  rewrite (big_lt _ e) in C by (auto; lia). destruct C as (C1 & C2 & _). unfold fsub. rewrite C1. auto.
Qed.
Lemma mul_spec (x y : f64) e : (-1074 <= e < 1024)%Z -> is_finite x = true -> is_finite y = true -> Rabs (B2R x * B2R y) <= bpow radix2 e ->
  B2R (fmul x y) = rnd (B2R x * B2R y) /\ is_finite (fmul x y) = true /\ Rabs (B2R (fmul x y)) <= bpow radix2 e.
Proof.
  intros He Fx Fy H. pose proof (Bmult_correct 53 1024 _ _ mode_NE x y) as C.
  assert (B : Rabs (rnd (B2R x * B2R y)) <= bpow radix2 e) by (apply rnd_abs_le; [lia|exact H]).
  rewrite (big_lt _ e) in C by (auto; lia). destruct C as (C1 & C2 & _). unfold fmul. rewrite C1, C2, Fx, Fy. auto.
Qed.
Lemma div_spec (x y : f64) e : (-1074 <= e < 1024)%Z -> is_finite x = true -> B2R y <> 0 -> Rabs (B2R x / B2R y) <= bpow radix2 e ->
  B2R (fdiv x y) = rnd (B2R x / B2R y) /\ is_finite (fdiv x y) = true /\ Rabs (B2R (fdiv x y)) <= bpow radix2 e.
Proof.
  intros He Fx Ny H. pose proof (Bdiv_correct 53 1024 _ _ mode_NE x y Ny) as C.
  assert (B : Rabs (rnd (B2R x / B2R y)) <= bpow radix2 e) by (apply rnd_abs_le; [lia|exact H]).
  rewrite (big_lt _ e) in C by (auto; lia). destruct C as (C1 & C2 & _). unfold fdiv. rewrite C1, C2, Fx. auto.
Qed.
Lemma sqrt_spec (x : f64) : is_finite x = true -> 0 <= B2R x ->
  B2R (fsqrt x) = rnd (sqrt (B2R x)) /\ is_finite (fsqrt x) = true.
Proof.
  intros Fx H. destruct (Bsqrt_correct 53 1024 _ _ mode_NE x) as (C1 & C2 & _). unfold fsqrt. split; auto. rewrite C2.
  destruct x as [s|s| |s m e Hx]; try discriminate; auto. destruct s; auto. exfalso. cbn [B2R] in H.
  assert (F2R (Float radix2 (cond_Zopp true (Z.pos m)) e) < 0); [|lra]. apply F2R_lt_0. reflexivity.
Qed.

(** Order *)
Lemma fle_spec (x y : f64) : is_finite x = true -> is_finite y = true -> (fle x y = true <-> B2R x <= B2R y).
Proof.
  intros Fx Fy. unfold fle. rewrite Bleb_correct by auto. destruct (Rle_bool_spec (B2R x) (B2R y)); split; auto; [discriminate|lra].
Qed.
Lemma flt_spec (x y : f64) : is_finite x = true -> is_finite y = true -> (flt x y = true <-> B2R x < B2R y).
Proof.
  intros Fx Fy. unfold flt. rewrite Bltb_correct by auto. destruct (Rlt_bool_spec (B2R x) (B2R y)); split; auto; [discriminate|lra].
Qed.
Lemma feq_spec (x y : f64) : is_finite x = true -> is_finite y = true -> (feq x y = true <-> B2R x = B2R y).
Proof.
  intros Fx Fy. unfold feq. rewrite Beqb_correct by auto. destruct (Req_bool_spec (B2R x) (B2R y)); split; auto; try discriminate; lra.
Qed.
Lemma flt_false (x y : f64) : is_finite x = true -> is_finite y = true -> flt x y = false -> B2R y <= B2R x.
Proof. intros Fx Fy H. destruct (Rle_or_lt (B2R y) (B2R x)) as [|L]; auto. apply flt_spec in L; auto. congruence. Qed.
Lemma finite_not_nan (x : f64) : is_finite x = true -> is_nan x = false.
Proof. destruct x; auto; discriminate. Qed.

(** The order of Go on the numbers that are not NaN: reflexive, transitive, total. *)
Lemma fle_refl (x : f64) : is_nan x = false -> fle x x = true.
Proof.
  intros H. destruct (is_finite x) eqn:F.
  - apply fle_spec; auto. lra.
  - destruct x as [|s| |]; try discriminate. destruct s; reflexivity.
Qed.
Lemma fle_total (x y : f64) : is_nan x = false -> is_nan y = false -> flt x y = false -> fle y x = true.
Proof.
  intros Nx Ny H. destruct (is_finite x) eqn:Fx; destruct (is_finite y) eqn:Fy.
  - apply fle_spec; auto. apply flt_false; auto.
  - destruct y as [|[]| |]; try discriminate; destruct x as [|[]| |]; try discriminate; auto. all: destruct s; discriminate || auto.
  - destruct x as [|[]| |]; try discriminate; destruct y as [|[]| |]; try discriminate; auto. all: destruct s; discriminate || auto.
  - destruct x as [|[]| |]; try discriminate; destruct y as [|[]| |]; try discriminate; auto.
Qed.
Lemma flt_fle (x y : f64) : flt x y = true -> fle x y = true.
Proof.
  unfold flt, fle, Bltb, Bleb, SpecFloat.SFltb, SpecFloat.SFleb.
  destruct (SpecFloat.SFcompare _ _) as [[]|]; intros H; auto; discriminate.
Qed.

(** math.Max and math.Min of numbers that are not NaN *)
Lemma fmax_spec (x y : f64) : is_nan x = false -> is_nan y = false ->
  is_nan (fmax x y) = false /\ fle x (fmax x y) = true /\ fle y (fmax x y) = true /\ (fmax x y = x \/ fmax x y = y).
Proof.
  intros Nx Ny. unfold fmax.
  destruct (is_pinf x) eqn:Ix.
  { destruct x as [|[]| |]; try discriminate. cbn [orb]. unfold f_pinf. repeat split; auto. destruct y as [|[]| |]; auto; try discriminate; destruct s; reflexivity. }
  destruct (is_pinf y) eqn:Iy.
  { destruct y as [|[]| |]; try discriminate. cbn [orb]. unfold f_pinf. repeat split; auto. destruct x as [|[]| |]; auto; try discriminate; destruct s; reflexivity. }
  rewrite Nx, Ny. cbn [orb]. destruct (is_zero x && is_zero y) eqn:Z.
  { apply andb_prop in Z. destruct Z as [Zx Zy]. destruct x as [sx| | |]; try discriminate. destruct y as [sy| | |]; try discriminate.
    cbn [Bsign]. destruct sx, sy; repeat split; auto. }
  destruct (flt y x) eqn:L.
  - repeat split; auto using fle_refl, flt_fle.
  - repeat split; auto using fle_refl. apply fle_total; auto.
Qed.
Lemma fmin_spec (x y : f64) : is_nan x = false -> is_nan y = false ->
  is_nan (fmin x y) = false /\ fle (fmin x y) x = true /\ fle (fmin x y) y = true /\ (fmin x y = x \/ fmin x y = y).
Proof.
  intros Nx Ny. unfold fmin.
  destruct (is_ninf x) eqn:Ix.
  { destruct x as [|[]| |]; try discriminate. cbn [orb]. unfold f_ninf. repeat split; auto. destruct y as [|[]| |]; auto; try discriminate; destruct s; reflexivity. }
  destruct (is_ninf y) eqn:Iy.
  { destruct y as [|[]| |]; try discriminate. cbn [orb]. unfold f_ninf. repeat split; auto. destruct x as [|[]| |]; auto; try discriminate; destruct s; reflexivity. }
  rewrite Nx, Ny. cbn [orb]. destruct (is_zero x && is_zero y) eqn:Z.
  { apply andb_prop in Z. destruct Z as [Zx Zy]. destruct x as [sx| | |]; try discriminate. destruct y as [sy| | |]; try discriminate.
    cbn [Bsign]. destruct sx, sy; repeat split; auto. }
  destruct (flt x y) eqn:L.
  - repeat split; auto using fle_refl, flt_fle.
  - repeat split; auto using fle_refl. apply fle_total; auto.
Qed.

(** What is not NaN *)
Lemma of_Z_not_nan z : is_nan (f_of_Z z) = false.
Proof.
  pose proof (binary_normalize_correct 53 1024 _ _ mode_NE z 0 false) as C. cbv zeta in C. fold (f_of_Z z) in C.
  destruct (Rlt_bool _ _) in C.
  - apply finite_not_nan. apply C.
  - destruct (f_of_Z z); try reflexivity. exfalso. cbn in C. unfold binary_overflow in C. cbn in C. discriminate C.
Qed.
Lemma div_not_nan (x y : f64) : is_nan x = false -> is_finite x = true -> B2R x <> 0 -> is_finite y = true -> is_nan (fdiv x y) = false.
Proof.
  intros Nx Fx Zx Fy. destruct (Req_dec (B2R y) 0) as [Z|Z].
  - destruct x as [| | |sx mx ex Hx]; try discriminate; [exfalso; apply Zx; reflexivity|].
    destruct y as [sy| | |sy my ey Hy]; try discriminate; [reflexivity|]. exfalso. revert Z. cbn [B2R].
    intros Z. apply eq_0_F2R in Z. destruct sy; discriminate Z.
  - pose proof (Bdiv_correct 53 1024 _ _ mode_NE x y Z) as C. fold (fdiv x y) in C. destruct (Rlt_bool _ _) in C.
    + apply finite_not_nan. destruct C as (_ & C & _). rewrite C. exact Fx.
    + destruct (fdiv x y); try reflexivity. exfalso. unfold binary_overflow in C. cbn in C. discriminate C.
Qed.
Lemma nearbyint_not_nan m (x : f64) : is_nan x = false -> is_nan (Bnearbyint (prec := 53) (emax := 1024) m x) = false.
Proof.
  intros N. destruct (is_finite x) eqn:F.
  - destruct (Bnearbyint_correct 53 1024 _ m x) as (_ & C & _). apply finite_not_nan. rewrite C. exact F.
  - destruct x; try discriminate; reflexivity.
Qed.
Lemma fle_trans (x y z : f64) : fle x y = true -> fle y z = true -> fle x z = true.
Proof.
  intros A B. destruct (is_finite x) eqn:Fx; destruct (is_finite y) eqn:Fy; destruct (is_finite z) eqn:Fz.
  1: { apply fle_spec in A; auto. apply fle_spec in B; auto. apply fle_spec; auto. lra. }
  all: destruct x as [[]|[]| |[]]; try discriminate; destruct y as [[]|[]| |[]]; try discriminate; destruct z as [[]|[]| |[]]; try discriminate; auto.
Qed.
Lemma fle_not_nan (x y : f64) : fle x y = true -> is_nan x = false /\ is_nan y = false.
Proof. destruct x as [[]|[]| |[]]; destruct y as [[]|[]| |[]]; intros H; try discriminate H; auto. Qed.

(** Non-negative numbers of bounded size *)
Definition bnd (x : f64) (a : Z) : Prop := is_finite x = true /\ 0 <= B2R x <= bpow radix2 a.

Lemma rnd_nonneg x : 0 <= x -> 0 <= rnd x.
Proof. intros H. apply rnd_ge; auto using fmt_0. Qed.
Lemma bnd_weaken x a b : bnd x a -> (a <= b)%Z -> bnd x b.
Proof. intros (F & L & U) H. split; auto. split; auto. eapply Rle_trans; [exact U|]. apply bpow_le. exact H. Qed.
Lemma mul_bnd x y a b : bnd x a -> bnd y b -> (-1074 <= a + b < 1024)%Z -> bnd (fmul x y) (a + b).
Proof.
  intros (Fx & Lx & Ux) (Fy & Ly & Uy) H.
  assert (P : 0 <= B2R x * B2R y <= bpow radix2 (a + b)).
  { rewrite bpow_plus. split; [nra|]. apply Rmult_le_compat; auto. }
  destruct (mul_spec x y (a + b)) as (E & F & B); auto. { rewrite Rabs_pos_eq; apply P. }
  split; auto. rewrite E in *. assert (0 <= rnd (B2R x * B2R y)) by (apply rnd_nonneg; apply P). rewrite Rabs_pos_eq in B; auto.
Qed.
Lemma div_bnd x y a b : bnd x a -> is_finite y = true -> bpow radix2 b <= B2R y -> (-1074 <= a - b < 1024)%Z -> bnd (fdiv x y) (a - b).
Proof.
  intros (Fx & Lx & Ux) Fy Ly H. pose proof (bpow_gt_0 radix2 b) as Pb.
  assert (P : 0 <= B2R x / B2R y <= bpow radix2 (a - b)).
  { unfold Zminus. rewrite bpow_plus, bpow_opp. split.
    - apply Rmult_le_pos; auto. left. apply Rinv_0_lt_compat. lra.
    - apply Rmult_le_compat; auto. { left. apply Rinv_0_lt_compat. lra. } apply Rinv_le; auto. }
  destruct (div_spec x y (a - b)) as (E & F & B); auto. { lra. } { rewrite Rabs_pos_eq; apply P. }
  split; auto. rewrite E in *. assert (0 <= rnd (B2R x / B2R y)) by (apply rnd_nonneg; apply P). rewrite Rabs_pos_eq in B; auto.
Qed.
Lemma add_bnd x y a : bnd x a -> bnd y a -> (-1074 <= a + 1 < 1024)%Z -> bnd (fadd x y) (a + 1).
Proof.
  intros (Fx & Lx & Ux) (Fy & Ly & Uy) H.
  assert (P : 0 <= B2R x + B2R y <= bpow radix2 (a + 1)).
  { rewrite bpow_plus. change (bpow radix2 1) with 2. lra. }
  destruct (add_spec x y (a + 1)) as (E & F & B); auto. { rewrite Rabs_pos_eq; apply P. }
  split; auto. rewrite E in *. assert (0 <= rnd (B2R x + B2R y)) by (apply rnd_nonneg; apply P). rewrite Rabs_pos_eq in B; auto.
Qed.
Lemma sqrt_bnd x a : bnd x (2 * a) -> (-1074 <= a)%Z -> bnd (fsqrt x) a.
Proof.
  intros (Fx & Lx & Ux) H. destruct (sqrt_spec x Fx Lx) as (E & F). split; auto. rewrite E. split.
  - apply rnd_nonneg. apply sqrt_pos.
  - apply rnd_le_gen; [apply fmt_bpow; auto|]. replace (bpow radix2 a) with (sqrt (bpow radix2 (2 * a))).
    + apply sqrt_le_1_alt. exact Ux.
    + replace (2 * a)%Z with (a + a)%Z by lia. rewrite bpow_plus. apply sqrt_square. apply bpow_ge_0.
Qed.
Lemma sub_finite x y a : bnd x a -> bnd y a -> (-1074 <= a < 1024)%Z -> is_finite (fsub x y) = true.
Proof.
  intros (Fx & Lx & Ux) (Fy & Ly & Uy) H. destruct (sub_spec x y a) as (E & F & B); auto. apply Rabs_le. lra.
Qed.
Lemma sub_bnd x y a : bnd x a -> bnd y a -> B2R y <= B2R x -> (-1074 <= a < 1024)%Z -> bnd (fsub x y) a.
Proof.
  intros (Fx & Lx & Ux) (Fy & Ly & Uy) C H. destruct (sub_spec x y a) as (E & F & B); auto. { apply Rabs_le. lra. }
  split; auto. rewrite E in *. assert (0 <= rnd (B2R x - B2R y)) by (apply rnd_nonneg; lra). rewrite Rabs_pos_eq in B; auto.
Qed.
Lemma of_Z_bnd z e : (0 <= e < 1024)%Z -> (0 <= z <= 2 ^ e)%Z -> bnd (f_of_Z z) e.
Proof.
  intros He H. destruct (of_Z_spec z e He) as (E & F & B). { lia. } split; auto. rewrite E in *.
  assert (0 <= rnd (IZR z)) by (apply rnd_nonneg; apply IZR_le; lia). rewrite Rabs_pos_eq in B; auto.
Qed.

(** Relative error of a rounding in the normal range *)
Lemma rnd_rel x : bpow radix2 (-1022) <= Rabs x -> exists eps, Rabs eps <= bpow radix2 (-53) /\ rnd x = x * (1 + eps).
Proof.
  intros H. destruct (relative_error_N_FLT_ex radix2 (-1074) 53 ltac:(lia) (fun x => negb (Z.even x)) x) as (eps & A & B).
  { exact H. }
  exists eps. split; [|exact B]. eapply Rle_trans; [exact A|]. change (-53 + 1)%Z with (-52)%Z.
  replace (/ 2) with (bpow radix2 (-1)) by (cbn; lra). rewrite <- bpow_plus. apply Rle_refl.
Qed.
