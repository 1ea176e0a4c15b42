(** * C74: estimates of theta and tuple sketches and their confidence bounds. *)
From Coq Require Import ZArith NArith Reals List Bool Psatz.
From Flocq Require Import Core Plus_error Mult_error BinarySingleNaN.
From Verif Require Import Base BitPackModel HashtableModel ThetaModel ThetaProps FloatModel FloatProofs EstimateModel EstimateLoops.
Import ListNotations.
Local Open Scope R_scope.

(** ** Vocabulary *)
Definition NtoR (n : N) : R := IZR (Z.of_N n).
(** Values of Theta64() *)
Definition good_theta (th : N) : Prop := (1 <= th <= MaxTheta)%N.
(** What is used of math.Log: negative on (0,1), +0 at 1. *)
Definition log_like (f : f64 -> f64) : Prop :=
  (forall x, is_finite x = true -> 0 < B2R x < 1 -> is_finite (f x) = true /\ B2R (f x) < 0) /\ f f_one = f_zero.
(** What is used of math.Pow: on (0,1], with an exponent up to 200, it is at most a millionth below the true power (when that is above 2^-1000). *)
Definition pow_like (f : f64 -> f64 -> f64) : Prop :=
  forall p k, is_finite p = true -> 0 < B2R p <= 1 -> (k <= 200)%nat -> bpow radix2 (-1000) <= B2R p ^ k ->
    is_finite (f p (f_of_N (N.of_nat k))) = true /\ (1 - bpow radix2 (-20)) * B2R p ^ k <= B2R (f p (f_of_N (N.of_nat k))).

(** ** Numbers *)
Lemma N_bnd n : (n < 2 ^ 64)%N -> bnd (f_of_N n) 64.
Proof. intros H. apply of_Z_bnd; lia. Qed.
Lemma N_val n : (n < 2 ^ 64)%N -> B2R (f_of_N n) = rnd (NtoR n).
Proof. intros H. apply (of_Z_spec (Z.of_N n) 64); lia. Qed.
Lemma N_exact n : (n <= 2 ^ 53)%N -> B2R (f_of_N n) = NtoR n.
Proof. intros H. rewrite N_val by lia. apply rnd_id. apply fmt_IZR. lia. Qed.
Lemma N_nan n : is_nan (f_of_N n) = false.
Proof. apply of_Z_not_nan. Qed.
Lemma one_val : B2R f_one = 1.
Proof. change f_one with (f_of_N 1). rewrite N_exact by lia. reflexivity. Qed.
Lemma one_bnd : bnd f_one 0.
Proof. apply of_Z_bnd; lia. Qed.
Lemma half_bnd : bnd f_half 0 /\ B2R f_half = / 2.
Proof.
  assert (E : B2SF f_half = SpecFloat.S754_finite false 4503599627370496 (-53)) by (vm_compute; reflexivity).
  assert (V : B2R f_half = / 2).
  { rewrite <- SF2R_B2SF, E. cbn [SF2R]. unfold F2R. cbn [Fnum Fexp cond_Zopp]. change (4503599627370496%Z) with (2 ^ 52)%Z.
    change (IZR (2 ^ 52)) with (bpow radix2 52). rewrite <- bpow_plus. cbn. lra. }
  split; auto. split; [vm_compute; reflexivity|]. rewrite V. cbn [bpow]. lra.
Qed.
Lemma max_theta_val : B2R (f_of_N MaxTheta) = bpow radix2 63.
Proof.
  assert (E : B2SF (f_of_N MaxTheta) = SpecFloat.S754_finite false 4503599627370496 11) by (vm_compute; reflexivity).
  rewrite <- SF2R_B2SF, E. cbn [SF2R]. unfold F2R. cbn [Fnum Fexp cond_Zopp]. change (4503599627370496%Z) with (2 ^ 52)%Z.
  change (IZR (2 ^ 52)) with (bpow radix2 52). rewrite <- bpow_plus. reflexivity.
Qed.

(** Theta() *)
Lemma theta_fraction_spec th : good_theta th ->
  is_finite (theta_fraction th) = true /\ bpow radix2 (-63) <= B2R (theta_fraction th) <= 1 /\
  B2R (theta_fraction th) = rnd (rnd (NtoR th) / bpow radix2 63).
Proof.
  intros (L & U). assert (H : (th < 2 ^ 64)%N) by (unfold MaxTheta in U; lia).
  assert (B : bpow radix2 0 <= B2R (f_of_N th) <= bpow radix2 63).
  { rewrite <- max_theta_val. rewrite !N_val by (auto; unfold MaxTheta; lia). split.
    - apply rnd_ge; [apply fmt_bpow; lia|]. apply IZR_le. lia.
    - apply rnd_le. apply IZR_le. lia. }
  assert (B1 : bnd (f_of_N th) 63). { split; [apply N_bnd; auto|]. change (bpow radix2 0) with 1 in B. lra. }
  destruct (div_bnd (f_of_N th) (f_of_N MaxTheta) 63 63) as (F & _ & X); auto; try lia.
  { rewrite max_theta_val. apply Rle_refl. }
  fold (theta_fraction th) in F, X.
  assert (V : B2R (theta_fraction th) = rnd (rnd (NtoR th) / bpow radix2 63)).
  { unfold theta_fraction. destruct (div_spec (f_of_N th) (f_of_N MaxTheta) 0) as (E & _); try lia; [apply B1| | |].
    - rewrite max_theta_val. apply Rgt_not_eq. apply bpow_gt_0.
    - rewrite max_theta_val. pose proof (bpow_gt_0 radix2 63). rewrite Rabs_pos_eq.
      + change (bpow radix2 0) with 1 in B. change (bpow radix2 0) with 1. apply Rmult_le_reg_r with (bpow radix2 63); auto. unfold Rdiv. rewrite Rmult_assoc, Rinv_l by lra. lra.
      + apply Rmult_le_pos; [apply B1|]. left. apply Rinv_0_lt_compat. auto.
    - rewrite E, max_theta_val, N_val by auto. reflexivity. }
  split; auto. split; auto. split; [|exact X]. rewrite V. apply rnd_ge; [apply fmt_bpow; lia|].
  change (-63)%Z with (- (63))%Z. rewrite (bpow_opp radix2 63). unfold Rdiv. rewrite <- (Rmult_1_l (/ bpow radix2 63)) at 1.
  apply Rmult_le_compat_r; [left; apply Rinv_0_lt_compat; apply bpow_gt_0|]. rewrite <- N_val by auto. exact (proj1 B).
Qed.

(** Estimate() *)
Lemma estimate_spec th n : good_theta th -> (n < 2 ^ 64)%N ->
  is_finite (estimate th n) = true /\ B2R (f_of_N n) <= B2R (estimate th n) /\
  B2R (estimate th n) = rnd (B2R (f_of_N n) / B2R (theta_fraction th)).
Proof.
  intros G H. destruct (theta_fraction_spec th G) as (F & (L & U) & _). pose proof (N_bnd n H) as B.
  pose proof (bpow_gt_0 radix2 (-63)) as P.
  destruct (div_bnd (f_of_N n) (theta_fraction th) 64 (-63) B F L) as (F' & L' & U'); try lia. fold (estimate th n) in *.
  destruct (div_spec (f_of_N n) (theta_fraction th) (64 - -63)) as (E & _ & _); try lia; [apply B|lra| |].
  - rewrite Rabs_pos_eq.
    + unfold Zminus. rewrite bpow_plus, bpow_opp. apply Rmult_le_compat; try apply B; [left; apply Rinv_0_lt_compat; lra|]. apply Rinv_le; auto.
    + apply Rmult_le_pos; [apply B|]. left. apply Rinv_0_lt_compat. lra.
  - fold (estimate th n) in E. split; auto. split; auto. rewrite E. apply rnd_ge; [apply fmt_B|].
    destruct B as (_ & B & _). rewrite <- (Rmult_1_r (B2R (f_of_N n))) at 1. apply Rmult_le_compat_l; auto.
    rewrite <- Rinv_1 at 1. apply Rinv_le; lra.
Qed.

(** The continuity-corrected bounds are finite. *)
Lemma classic_parts (x theta sd : f64) : bnd x 65 -> is_finite theta = true -> bpow radix2 (-63) <= B2R theta <= 1 -> bnd sd 4 ->
  let nHat := fdiv x theta in
  let b := fmul sd (fsqrt (fdiv (fsub f_one theta) theta)) in
  bnd (fmul (fmul f_half b) (fsqrt (fadd (fmul b b) (fmul (f_of_Z 4) nHat)))) 131 /\
  bnd (fadd nHat (fmul f_half (fmul b b))) 131.
Proof.
  intros Bx Ft (Lt & Ut) Bs nHat b. pose proof (bpow_gt_0 radix2 (-63)) as P. destruct half_bnd as (Bh & _).
  assert (Bn : bnd nHat 128) by (apply (div_bnd x theta 65 (-63)); auto; lia).
  assert (B1 : bnd (fsub f_one theta) 0).
  { apply sub_bnd; [apply one_bnd| |rewrite one_val; auto|lia]. split; auto. change (bpow radix2 0) with 1. lra. }
  assert (B2 : bnd (fdiv (fsub f_one theta) theta) (2 * 32)).
  { apply bnd_weaken with (0 - -63)%Z; [|lia]. apply div_bnd; auto; lia. }
  apply sqrt_bnd in B2; [|lia].
  assert (Bb : bnd b (4 + 32)) by (apply mul_bnd; auto; lia).
  assert (Bbb : bnd (fmul b b) 72) by (apply (mul_bnd b b 36 36); auto; lia).
  assert (B4 : bnd (fmul (f_of_Z 4) nHat) 130). { apply (mul_bnd _ _ 2 128); auto; [apply of_Z_bnd; lia|lia]. }
  assert (Bs2 : bnd (fadd (fmul b b) (fmul (f_of_Z 4) nHat)) (2 * 66)).
  { apply bnd_weaken with (130 + 1)%Z; [|lia]. apply add_bnd; auto; [|lia]. apply bnd_weaken with 72%Z; auto. lia. }
  apply sqrt_bnd in Bs2; [|lia]. split.
  - apply bnd_weaken with (0 + 36 + 66)%Z; [|lia]. apply mul_bnd; auto; [|lia]. apply mul_bnd; auto. lia.
  - apply bnd_weaken with (128 + 1)%Z; [|lia]. apply add_bnd; auto; [|lia]. apply bnd_weaken with (0 + 72)%Z; [|lia].
    apply mul_bnd; auto. lia.
Qed.
Lemma classic_lb_finite n theta sd : (1 <= n < 2 ^ 64)%N -> is_finite theta = true -> bpow radix2 (-63) <= B2R theta <= 1 -> bnd sd 4 ->
  is_finite (cont_classic_lb n theta sd) = true /\ Rabs (B2R (cont_classic_lb n theta sd)) <= bpow radix2 131.
Proof.
  intros Hn Ft Bt Bs. destruct half_bnd as (Bh & Vh). unfold cont_classic_lb. cbv zeta.
  destruct (classic_parts (fsub (f_of_N n) f_half) theta sd) as (A & B); auto.
  { apply bnd_weaken with 64%Z; [|lia]. apply sub_bnd; [apply N_bnd; lia|apply bnd_weaken with 0%Z; auto; lia| |lia].
    rewrite Vh, N_val by lia. apply Rle_trans with 1; [lra|]. change 1 with (bpow radix2 0). apply rnd_ge; [apply fmt_bpow; lia|].
    apply IZR_le. lia. }
  match goal with |- is_finite (fsub ?a ?b) = true /\ _ => destruct (sub_spec a b 131) as (_ & F & X); try lia; auto; [apply B|apply A|] end.
  destruct A as (_ & A), B as (_ & B). apply Rabs_le. lra.
Qed.
Lemma classic_ub_finite n theta sd : (n < 2 ^ 64)%N -> is_finite theta = true -> bpow radix2 (-63) <= B2R theta <= 1 -> bnd sd 4 ->
  bnd (cont_classic_ub n theta sd) 132.
Proof.
  intros Hn Ft Bt Bs. destruct half_bnd as (Bh & Vh). unfold cont_classic_ub. cbv zeta.
  destruct (classic_parts (fadd (f_of_N n) f_half) theta sd) as (A & B); auto.
  { apply (add_bnd _ _ 64); [apply N_bnd; lia|apply bnd_weaken with 0%Z; auto; lia|lia]. }
  apply (add_bnd _ _ 131); auto. lia.
Qed.

(** The tables *)
Lemma tab_bnd t i : (forallb (fun p => let v := f_lit (fst p) (snd p) in is_finite v && fle f_zero v && fle v (f_of_Z 16)) t = true) ->
  forall v, f_tab t i = Some v -> bnd v 4.
Proof.
  intros H v E. unfold f_tab in E. destruct (nth_error t i) as [(m, e)|] eqn:N; [|discriminate E].
  rewrite forallb_forall in H. specialize (H _ (nth_error_In _ _ N)). cbn [fst snd] in H. cbv zeta in H.
  apply andb_prop in H. destruct H as (H & C). apply andb_prop in H. destruct H as (A & B).
  assert (X : v = f_lit m e) by congruence. subst v. 
  assert (F16 : bnd (f_of_Z 16) 4) by (apply of_Z_bnd; lia). split; auto.
  apply fle_spec in B; auto. apply fle_spec in C; auto. split; [exact B|]. destruct F16 as (_ & _ & F16). lra.
Qed.
Lemma lb_tab_bnd i v : f_tab lb_tab i = Some v -> bnd v 4.
Proof. apply tab_bnd. vm_compute. reflexivity. Qed.
Lemma ub_tab_bnd i v : f_tab ub_tab i = Some v -> bnd v 4.
Proof. apply tab_bnd. vm_compute. reflexivity. Qed.
Lemma tab_some t i : (i < length t)%nat -> exists v, f_tab t i = Some v.
Proof.
  intros H. apply nth_error_Some in H. unfold f_tab. destruct (nth_error t i) as [(m, e)|]; [eauto|congruence].
Qed.
Lemma tab_index n sd : (n <= 120)%N -> (1 <= sd <= 3)%nat -> (3 * N.to_nat n + (sd - 1) < 363)%nat.
Proof. lia. Qed.
Lemma lb_tab_length : length lb_tab = 363%nat. Proof. vm_compute. reflexivity. Qed.
Lemma ub_tab_length : length ub_tab = 363%nat. Proof. vm_compute. reflexivity. Qed.
Lemma delta_ok sd : (1 <= sd <= 3)%nat -> exists d, f_tab delta_tab sd = Some d /\ is_finite d = true /\ 0 < B2R d < 1 /\
  is_finite (fsub f_one d) = true /\ 0 < B2R (fsub f_one d) < 1 /\ B2R d <= limit /\ B2R (fsub f_one d) <= limit.
Proof.
  intros H.
  assert (VL : B2R (f_lit 4091 (-12)) = limit).
  { assert (E : B2SF (f_lit 4091 (-12)) = SpecFloat.S754_finite false (4091 * 2 ^ 41) (-53)) by (vm_compute; reflexivity).
    rewrite <- SF2R_B2SF, E. cbn [SF2R]. unfold F2R, limit. cbn [Fnum Fexp cond_Zopp]. change (Z.pos (4091 * 2 ^ 41)) with (4091 * 2 ^ 41)%Z.
    rewrite mult_IZR. change (IZR (2 ^ 41)) with (bpow radix2 41). rewrite Rmult_assoc, <- bpow_plus. change (bpow radix2 (41 + -53)) with (/ 4096).
    change (bpow radix2 (-10)) with (/ 1024). change (bpow radix2 (-12)) with (/ 4096). lra. }
  assert (X : forall d, is_finite d = true -> is_finite (fsub f_one d) = true -> flt f_zero d = true -> flt d f_one = true ->
     flt f_zero (fsub f_one d) = true -> flt (fsub f_one d) f_one = true ->
     flt d (f_lit 4091 (-12)) = true -> flt (fsub f_one d) (f_lit 4091 (-12)) = true -> is_finite d = true /\ 0 < B2R d < 1 /\
     is_finite (fsub f_one d) = true /\ 0 < B2R (fsub f_one d) < 1 /\ B2R d <= limit /\ B2R (fsub f_one d) <= limit).
  { intros d F1 F2 A B C D U V. pose proof one_bnd as (F3 & _). apply flt_spec in A, B, C, D, U, V; auto. rewrite one_val in B, D.
    rewrite VL in U, V. repeat split; auto; lra. }
  assert (C : sd = 1%nat \/ sd = 2%nat \/ sd = 3%nat) by lia.
  destruct C as [->|[->| ->]]; (eexists; split; [reflexivity|]); apply X; vm_compute; reflexivity.
Qed.

(** ** The parts of the bounds *)
Lemma one_minus theta : is_finite theta = true -> 0 <= B2R theta < 1 ->
  is_finite (fsub f_one theta) = true /\ 0 < B2R (fsub f_one theta) <= 1.
Proof.
  intros F (L & U). destruct (sub_spec f_one theta 0) as (E & F' & _); try lia; auto.
  { rewrite one_val. change (bpow radix2 0) with 1. rewrite Rabs_pos_eq; lra. }
  split; auto. rewrite E, one_val. split.
  - assert (0 <= rnd (1 - B2R theta)) by (apply rnd_nonneg; lra).
    assert (N : rnd (1 + - B2R theta) <> 0).
    { apply round_plus_neq_0; try typeclasses eauto.
      - rewrite <- one_val. apply fmt_B.
      - apply generic_format_opp. apply fmt_B.
      - lra. }
    unfold Rminus in *. lra.
  - apply rnd_le_gen; [|lra]. rewrite <- one_val. apply fmt_B.
Qed.
Lemma finite_1 (x : f64) : is_finite x = true -> B2R x = 1 -> x = f_one.
Proof.
  intros F E. apply B2R_inj; [|reflexivity|rewrite one_val; auto].
  destruct x; try discriminate; auto. cbn [B2R] in E. lra.
Qed.
Lemma log_one_minus flog theta : log_like flog -> is_finite theta = true -> 0 <= B2R theta < 1 ->
  is_finite (flog (fsub f_one theta)) = true.
Proof.
  intros (L1 & L2) F B. destruct (one_minus theta F B) as (F' & P & Q). destruct (Rle_lt_or_eq_dec _ _ Q) as [Q'|Q'].
  - apply L1; auto.
  - rewrite (finite_1 _ F' Q'), L2. reflexivity.
Qed.

Definition good_fraction (theta : f64) : Prop := is_finite theta = true /\ bpow radix2 (-63) <= B2R theta <= 1.
Definition ok_or (P : f64 -> Prop) (r : option (res f64)) : Prop :=
  match r with Some (Ok v) => P v | Some Panic => False | _ => True end.

Lemma count_ok r : r <> Some Panic -> ok_or (fun v => is_nan v = false) (with_count r).
Proof. destruct r as [[]|]; cbn; intros H; auto. apply N_nan. Qed.
Lemma n_star_panic fpow fuel n p d : special_n_star fpow fuel n p d <> Some Panic.
Proof.
  unfold special_n_star. cbv zeta. destruct (fle f_500 _); [discriminate|]. destruct (fle _ f_1em100); [discriminate|].
  destruct (nstar_loop _ _ _ _ _ _ _); discriminate.
Qed.
Lemma n_prime_panic fpow fuel n p d : special_n_prime_f fpow fuel n p d <> Some Panic.
Proof.
  unfold special_n_prime_f, special_n_prime_b. cbv zeta. destruct (fle f_500 _); [discriminate|]. destruct (fle _ f_1em100); [discriminate|].
  destruct (nprime_loop _ _ _ _ _ _ _); discriminate.
Qed.
Lemma sd_bnd sd : (1 <= sd <= 3)%nat -> bnd (f_of_Z (Z.of_nat sd)) 4.
Proof. intros H. apply of_Z_bnd; lia. Qed.
Lemma nan_sub_half x : is_finite x = true -> Rabs (B2R x) <= bpow radix2 131 -> is_nan (fsub x f_half) = false.
Proof.
  intros F B. apply finite_not_nan. destruct half_bnd as ((Fh & _) & Vh). destruct (sub_spec x f_half 132) as (_ & X & _); try lia; auto.
  rewrite Vh. change 132%Z with (131 + 1)%Z. rewrite bpow_plus. change (bpow radix2 1) with 2. revert B. unfold Rabs.
  assert (1 <= bpow radix2 131) by (change 1 with (bpow radix2 0); apply bpow_le; lia).
  destruct (Rcase_abs _), (Rcase_abs _); lra.
Qed.

Lemma approx_lb_ok flog fpow fuel n theta sd : log_like flog -> good_fraction theta -> (n < 2 ^ 64)%N -> (1 <= sd <= 3)%nat ->
  ok_or (fun v => is_nan v = false) (approx_lb flog fpow fuel n theta sd).
Proof.
  intros Lg (F & B) Hn Hs. pose proof (bpow_gt_0 radix2 (-63)) as P. unfold approx_lb.
  destruct (feq theta f_one) eqn:E1; [apply N_nan|].
  assert (T1 : B2R theta < 1).
  { destruct (Rle_lt_or_eq_dec _ _ (proj2 B)) as [X|X]; auto. exfalso. rewrite <- one_val in X. apply feq_spec in X; auto. congruence. }
  destruct (delta_ok sd Hs) as (d & Ed & Fd & Bd & Fd' & Bd' & _).
  destruct (N.eqb_spec n 0); [reflexivity|].
  destruct (N.eqb_spec n 1).
  { rewrite Ed. cbn [with_tab ok_or]. apply nearbyint_not_nan. destruct Lg as (L1 & L2). destruct (L1 _ Fd' Bd') as (Fl & Nl).
    apply div_not_nan; auto using finite_not_nan; [lra|]. apply log_one_minus; [split; auto|auto|lra]. }
  destruct (N.ltb_spec 120 n).
  { cbn [ok_or]. destruct (classic_lb_finite n theta _ ltac:(lia) F B (sd_bnd sd Hs)). apply nan_sub_half; auto. }
  destruct (flt f_almost_one theta); [apply N_nan|].
  destruct (flt theta (fdiv (f_of_N n) f_360)).
  { destruct (tab_some lb_tab (3 * N.to_nat n + (sd - 1))) as (v & Ev). { rewrite lb_tab_length. apply tab_index; auto. }
    rewrite Ev. cbn [with_tab ok_or]. destruct (classic_lb_finite n theta v ltac:(lia) F B (lb_tab_bnd _ _ Ev)). apply nan_sub_half; auto. }
  rewrite Ed. cbn [with_tab]. apply count_ok. apply n_star_panic.
Qed.

Lemma approx_ub_ok flog fpow fuel n theta sd : log_like flog -> good_fraction theta -> (n < 2 ^ 64)%N -> (1 <= sd <= 3)%nat ->
  ok_or (fun v => is_nan v = false) (approx_ub flog fpow fuel n theta sd).
Proof.
  intros Lg (F & B) Hn Hs. pose proof (bpow_gt_0 radix2 (-63)) as P. unfold approx_ub.
  destruct (feq theta f_one) eqn:E1; [apply N_nan|].
  assert (T1 : B2R theta < 1).
  { destruct (Rle_lt_or_eq_dec _ _ (proj2 B)) as [X|X]; auto. exfalso. rewrite <- one_val in X. apply feq_spec in X; auto. congruence. }
  destruct (delta_ok sd Hs) as (d & Ed & Fd & Bd & Fd' & Bd' & _).
  destruct (N.eqb_spec n 0).
  { rewrite Ed. cbn [with_tab ok_or]. apply nearbyint_not_nan. destruct Lg as (L1 & L2). destruct (L1 _ Fd Bd) as (Fl & Nl).
    apply div_not_nan; auto using finite_not_nan; [lra|]. apply log_one_minus; [split; auto|auto|lra]. }
  assert (X : forall v, bnd v 4 -> is_nan (fadd (cont_classic_ub n theta v) f_half) = false).
  { intros v Bv. apply finite_not_nan. apply (add_bnd _ _ 132); [|apply bnd_weaken with 0%Z; [apply half_bnd|lia]|lia].
    apply classic_ub_finite; auto. }
  destruct (N.ltb_spec 120 n).
  { cbn [ok_or]. apply X. apply sd_bnd; auto. }
  destruct (flt f_almost_one theta); [apply N_nan|].
  destruct (flt theta (fdiv (f_of_N n) f_360)).
  { destruct (tab_some ub_tab (3 * N.to_nat n + (sd - 1))) as (v & Ev). { rewrite ub_tab_length. apply tab_index; auto. }
    rewrite Ev. cbn [with_tab ok_or]. apply X. apply (ub_tab_bnd _ _ Ev). }
  rewrite Ed. cbn [with_tab]. apply count_ok. apply n_prime_panic.
Qed.

(** ** The "exact" range is called for limited inputs only. *)
Lemma lit_301 : B2R (f_lit 1 (-301)) = bpow radix2 (-301).
Proof.
  assert (E : B2SF (f_lit 1 (-301)) = SpecFloat.S754_finite false 4503599627370496 (-353)) by (vm_compute; reflexivity).
  rewrite <- SF2R_B2SF, E. cbn [SF2R]. unfold F2R. cbn [Fnum Fexp cond_Zopp]. change (4503599627370496%Z) with (2 ^ 52)%Z.
  change (IZR (2 ^ 52)) with (bpow radix2 52). rewrite <- bpow_plus. reflexivity.
Qed.
Definition power_check (n : Z) : bool :=
  ((32768 ^ n <=? (73 * n) ^ n * 2 ^ 300) && (32768 ^ (n + 1) <=? (73 * n) ^ (n + 1) * 2 ^ 300))%Z.
Lemma power_ok : forallb (fun i => power_check (Z.of_nat i)) (seq 1 120) = true.
Proof. vm_compute. reflexivity. Qed.
Lemma power_bound (x : R) (n k : nat) : (1 <= n <= 120)%nat -> k = n \/ k = S n -> 73 * INR n / 32768 <= x -> bpow radix2 (-300) <= x ^ k.
Proof.
  intros Hn Hk Hx. pose proof power_ok as P. rewrite forallb_forall in P. specialize (P n ltac:(apply in_seq; lia)).
  unfold power_check in P. apply andb_prop in P. destruct P as (P1 & P2). apply Z.leb_le in P1, P2.
  assert (Q : (32768 ^ Z.of_nat k <= (73 * Z.of_nat n) ^ Z.of_nat k * 2 ^ 300)%Z).
  { destruct Hk as [->| ->]; auto. rewrite Nat2Z.inj_succ, <- Z.add_1_r. exact P2. }
  apply IZR_le in Q. rewrite mult_IZR, <- !pow_IZR, mult_IZR, <- INR_IZR_INZ in Q.
  change (IZR (2 ^ 300)) with (bpow radix2 300) in Q.
  apply Rle_trans with ((73 * INR n / 32768) ^ k).
  - unfold Rdiv. rewrite Rpow_mult_distr, pow_inv.
    assert (0 < 32768 ^ k) by (apply pow_lt; lra). apply Rmult_le_reg_r with (32768 ^ k); auto.
    rewrite Rmult_assoc, Rinv_l, Rmult_1_r by lra. change (-300)%Z with (- (300))%Z. rewrite bpow_opp.
    pose proof (bpow_gt_0 radix2 300). apply Rmult_le_reg_l with (bpow radix2 300); auto. rewrite <- Rmult_assoc, Rinv_r, Rmult_1_l by lra. lra.
  - apply pow_incr. split; auto. pose proof (pos_INR n). lra.
Qed.

Lemma special_range n theta : good_fraction theta -> (1 <= n <= 120)%N -> flt theta (fdiv (f_of_N n) f_360) = false ->
  73 * INR (N.to_nat n) / 32768 <= B2R theta /\ fle f_500 (fdiv (f_of_N n) theta) = false.
Proof.
  intros (F & B) Hn H. pose proof (bpow_gt_0 radix2 (-63)) as P.
  assert (V : B2R (f_of_N n) = INR (N.to_nat n)). { rewrite N_exact by lia. unfold NtoR. rewrite INR_IZR_INZ. f_equal. lia. }
  assert (I1 : 1 <= INR (N.to_nat n) <= 120).
  { split; [change 1 with (INR 1)|replace 120 with (INR 120) by (rewrite INR_IZR_INZ; reflexivity)]; apply le_INR; lia. }
  assert (V360 : B2R f_360 = 360) by (change f_360 with (f_of_N 360); rewrite N_exact by lia; reflexivity).
  assert (V500 : B2R f_500 = 500) by (change f_500 with (f_of_N 500); rewrite N_exact by lia; reflexivity).
  destruct (div_spec (f_of_N n) f_360 0) as (E & F3 & _); try lia; auto.
  { apply N_bnd. lia. } { lra. } { rewrite V, V360. change (bpow radix2 0) with 1. rewrite Rabs_pos_eq; lra. }
  apply flt_false in H; auto. rewrite E, V, V360 in H.
  assert (L : 73 * INR (N.to_nat n) / 32768 <= B2R theta).
  { eapply Rle_trans; [|exact H]. apply rnd_ge; [|lra].
    apply generic_format_FLT with (prec := 53%Z) (emin := (-1074)%Z).
    apply (FLT_spec radix2 (-1074) 53 _ (Float radix2 (73 * Z.of_N n) (-15))).
    - unfold F2R. cbn [Fnum Fexp]. rewrite mult_IZR. replace (IZR (Z.of_N n)) with (INR (N.to_nat n)) by (rewrite INR_IZR_INZ; f_equal; lia).
      cbn [bpow]. change (IZR (Z.pow_pos radix2 15)) with 32768. lra.
    - cbn [Fnum]. change (Zpower radix2 53) with (2 ^ 53)%Z. lia.
    - cbn [Fexp]. lia. }
  split; auto. apply not_true_is_false. intros C.
  assert (Q : INR (N.to_nat n) / B2R theta <= 449).
  { apply Rmult_le_reg_r with (B2R theta); [lra|]. unfold Rdiv. rewrite Rmult_assoc, Rinv_l by lra. lra. }
  destruct (div_spec (f_of_N n) theta 9) as (E2 & F4 & _); try lia; auto.
  { apply N_bnd. lia. } { lra. }
  { rewrite V. rewrite Rabs_pos_eq. - eapply Rle_trans; [exact Q|]. cbn [bpow]. change (IZR (Z.pow_pos radix2 9)) with 512. lra.
    - apply Rmult_le_pos; [lra|]. left. apply Rinv_0_lt_compat. lra. }
  apply fle_spec in C; auto. rewrite E2, V, V500 in C.
  assert (rnd (INR (N.to_nat n) / B2R theta) <= 449) by (apply rnd_le_gen; auto; apply (fmt_IZR 449); lia). lra.
Qed.

Lemma pow_big fpow n k theta : pow_like fpow -> good_fraction theta -> (1 <= n <= 120)%N -> k = n \/ k = (n + 1)%N ->
  73 * INR (N.to_nat n) / 32768 <= B2R theta -> fle (fpow theta (f_of_N k)) f_1em100 = false.
Proof.
  intros Pw (F & B) Hn Hk L. pose proof (bpow_gt_0 radix2 (-63)) as P.
  assert (Q : bpow radix2 (-300) <= B2R theta ^ N.to_nat k) by (apply power_bound with (N.to_nat n); auto; lia).
  destruct (Pw theta (N.to_nat k) F) as (F' & V); [lra|lia| |].
  { eapply Rle_trans; [|exact Q]. apply bpow_le. lia. }
  rewrite N2Nat.id in F', V. apply not_true_is_false. intros C.
  assert (S : flt f_1em100 (f_lit 1 (-301)) = true) by (vm_compute; reflexivity).
  apply flt_spec in S; auto. apply fle_spec in C; auto. rewrite lit_301 in S.
  assert (bpow radix2 (-301) = bpow radix2 (-300) / 2).
  { change (-301)%Z with (-300 + -1)%Z. rewrite bpow_plus. change (bpow radix2 (-1)) with (/ 2). reflexivity. }
  assert (bpow radix2 (-20) <= / 2) by (change (/ 2) with (bpow radix2 (-1)); apply bpow_le; lia).
  assert (/ 2 * bpow radix2 (-300) <= (1 - bpow radix2 (-20)) * B2R theta ^ N.to_nat k).
  { apply Rmult_le_compat; try lra. apply bpow_ge_0. }
  lra.
Qed.

(** The loops end. *)
Lemma almost_one_val : B2R f_almost_one <= 1 - bpow radix2 (-20).
Proof.
  assert (S : flt f_almost_one (f_lit 1048575 (-20)) = true) by (vm_compute; reflexivity).
  assert (Fa : is_finite f_almost_one = true) by (vm_compute; reflexivity). assert (Fb : is_finite (f_lit 1048575 (-20)) = true) by (vm_compute; reflexivity).
  apply (flt_spec _ _ Fa Fb) in S.
  assert (V : B2R (f_lit 1048575 (-20)) = 1 - bpow radix2 (-20)); [|lra].
  assert (E : B2SF (f_lit 1048575 (-20)) = SpecFloat.S754_finite false (1048575 * 2 ^ 33) (-53)) by (vm_compute; reflexivity).
  rewrite <- SF2R_B2SF, E. cbn [SF2R]. unfold F2R. cbn [Fnum Fexp cond_Zopp]. change (Z.pos (1048575 * 2 ^ 33)) with (1048575 * 2 ^ 33)%Z.
  rewrite mult_IZR. change (IZR (2 ^ 33)) with (bpow radix2 33). rewrite Rmult_assoc, <- bpow_plus. change (bpow radix2 (33 + -53)) with (/ 1048576).
  change (bpow radix2 (-20)) with (/ 1048576). lra.
Qed.
Definition enough (fuel : nat) : Prop := (15000 <= Z.of_nat fuel)%Z.
Lemma loops_end fpow fuel n k theta lim : pow_like fpow -> good_fraction theta -> (1 <= n <= 120)%N -> k = n \/ k = (n + 1)%N ->
  73 * INR (N.to_nat n) / 32768 <= B2R theta -> flt f_almost_one theta = false -> enough fuel -> is_finite lim = true -> B2R lim <= limit ->
  nstar_loop fuel k (fsub f_one theta) lim (fpow theta (f_of_N k)) (fpow theta (f_of_N k)) k <> None /\
  nprime_loop fuel k (fsub f_one theta) lim (fpow theta (f_of_N k)) (fpow theta (f_of_N k)) k <> None.
Proof.
  intros Pw (F & B) Hn Hk L A En Fl Hl. pose proof (bpow_gt_0 radix2 (-63)) as P.
  apply flt_false in A; [|vm_compute; reflexivity|auto]. pose proof almost_one_val as Av. pose proof (bpow_gt_0 radix2 (-20)) as P20.
  set (i := N.to_nat (k - 1)). assert (Ek : k = N.of_nat (S i)) by (unfold i; lia).
  assert (Q : bpow radix2 (-300) <= B2R theta ^ S i) by (apply power_bound with (N.to_nat n); auto; lia).
  destruct (Pw theta (S i) F) as (F' & V); [lra|lia| |].
  { eapply Rle_trans; [|exact Q]. apply bpow_le. lia. }
  rewrite <- Ek in F', V.
  destruct (tail_small (B2R theta) (N.to_nat n) i) as (J & J1 & J2 & J3); [lra|lia|lia|auto|].
  assert (I : Inv theta i i (fpow theta (f_of_N k)) (fpow theta (f_of_N k))) by (apply start; auto; lia).
  unfold enough in En. split; rewrite Ek at 1 4.
  - apply (nstar_ends theta i) with (J := J) (k := (J - i)%nat); auto; try lia; try lra.
  - apply (nprime_ends theta i) with (J := J) (k := (J - i)%nat); auto; try lia; try lra.
Qed.

Lemma approx_lb_no_err flog fpow fuel n theta sd : pow_like fpow -> good_fraction theta -> (1 <= sd <= 3)%nat ->
  approx_lb flog fpow fuel n theta sd <> Some Err.
Proof.
  intros Pw G Hs. unfold approx_lb. destruct (delta_ok sd Hs) as (d & Ed & _).
  destruct (feq theta f_one); [discriminate|]. destruct (N.eqb_spec n 0); [discriminate|].
  destruct (N.eqb_spec n 1). { rewrite Ed. discriminate. }
  destruct (N.ltb_spec 120 n); [discriminate|]. destruct (flt f_almost_one theta); [discriminate|].
  destruct (flt theta _) eqn:E3. { destruct (f_tab lb_tab _); discriminate. }
  rewrite Ed. cbn [with_tab]. destruct (special_range n theta G ltac:(lia) E3) as (L & E5). unfold special_n_star. cbv zeta. rewrite E5.
  rewrite (pow_big fpow n n) by (auto; lia). destruct (nstar_loop _ _ _ _ _ _ _); discriminate.
Qed.
Lemma approx_ub_no_err flog fpow fuel n theta sd : pow_like fpow -> good_fraction theta -> (1 <= sd <= 3)%nat ->
  approx_ub flog fpow fuel n theta sd <> Some Err.
Proof.
  intros Pw G Hs. unfold approx_ub. destruct (delta_ok sd Hs) as (d & Ed & _).
  destruct (feq theta f_one); [discriminate|]. destruct (N.eqb_spec n 0). { rewrite Ed. discriminate. }
  destruct (N.ltb_spec 120 n); [discriminate|]. destruct (flt f_almost_one theta); [discriminate|].
  destruct (flt theta _) eqn:E3. { destruct (f_tab ub_tab _); discriminate. }
  rewrite Ed. cbn [with_tab]. destruct (special_range n theta G ltac:(lia) E3) as (L & E5).
  unfold special_n_prime_f, special_n_prime_b. cbv zeta. rewrite E5.
  rewrite (pow_big fpow n (n + 1)) by (auto; lia). destruct (nprime_loop _ _ _ _ _ _ _); discriminate.
Qed.

Lemma approx_lb_ends flog fpow fuel n theta sd : pow_like fpow -> good_fraction theta -> (1 <= sd <= 3)%nat -> enough fuel ->
  approx_lb flog fpow fuel n theta sd <> None.
Proof.
  intros Pw G Hs En. unfold approx_lb. destruct (delta_ok sd Hs) as (d & Ed & Fd & _ & _ & _ & Ld & _).
  destruct (feq theta f_one); [discriminate|]. destruct (N.eqb_spec n 0); [discriminate|].
  destruct (N.eqb_spec n 1). { rewrite Ed. discriminate. }
  destruct (N.ltb_spec 120 n); [discriminate|]. destruct (flt f_almost_one theta) eqn:E2; [discriminate|].
  destruct (flt theta _) eqn:E3. { destruct (f_tab lb_tab _); discriminate. }
  rewrite Ed. cbn [with_tab]. destruct (special_range n theta G ltac:(lia) E3) as (L & E5). unfold special_n_star. cbv zeta. rewrite E5.
  destruct (fle _ f_1em100); [discriminate|].
  destruct (loops_end fpow fuel n n theta d Pw G ltac:(lia) (or_introl eq_refl) L E2 En Fd Ld) as (X & _).
  destruct (nstar_loop _ _ _ _ _ _ _); [discriminate|congruence].
Qed.
Lemma approx_ub_ends flog fpow fuel n theta sd : pow_like fpow -> good_fraction theta -> (1 <= sd <= 3)%nat -> enough fuel ->
  approx_ub flog fpow fuel n theta sd <> None.
Proof.
  intros Pw G Hs En. unfold approx_ub. destruct (delta_ok sd Hs) as (d & Ed & _ & _ & Fd & _ & _ & Ld).
  destruct (feq theta f_one); [discriminate|]. destruct (N.eqb_spec n 0). { rewrite Ed. discriminate. }
  destruct (N.ltb_spec 120 n); [discriminate|]. destruct (flt f_almost_one theta) eqn:E2; [discriminate|].
  destruct (flt theta _) eqn:E3. { destruct (f_tab ub_tab _); discriminate. }
  rewrite Ed. cbn [with_tab]. destruct (special_range n theta G ltac:(lia) E3) as (L & E5).
  unfold special_n_prime_f, special_n_prime_b. cbv zeta. rewrite E5.
  destruct (fle _ f_1em100); [discriminate|].
  destruct (loops_end fpow fuel n (n + 1) theta (fsub f_one d) Pw G ltac:(lia) (or_intror eq_refl) L E2 En Fd Ld) as (_ & X).
  destruct (nprime_loop _ _ _ _ _ _ _); [discriminate|congruence].
Qed.

Lemma good_theta_fraction th : good_theta th -> good_fraction (theta_fraction th).
Proof. intros G. destruct (theta_fraction_spec th G) as (F & B & _). split; auto. Qed.
Lemma theta_valid th : good_theta th -> theta_invalid (theta_fraction th) = false.
Proof.
  intros G. destruct (good_theta_fraction th G) as (F & B). pose proof (bpow_gt_0 radix2 (-63)) as P. unfold theta_invalid.
  apply orb_false_intro; apply not_true_is_false; intros C.
  - apply fle_spec in C; auto. change (B2R f_zero) with 0 in C. lra.
  - apply flt_spec in C; auto. rewrite one_val in C. lra.
Qed.
Lemma sd_valid sd : sd_invalid sd = false <-> (1 <= sd <= 3)%nat.
Proof. unfold sd_invalid. rewrite orb_false_iff, !Nat.ltb_ge. lia. Qed.

(** ** C74 *)
(** Theta() is a number in (0, 1], and 1 when Theta64() is the maximum. *)
Theorem theta_is_a_fraction : forall th, good_theta th ->
  is_finite (theta_fraction th) = true /\ 0 < B2R (theta_fraction th) <= 1 /\ theta_fraction MaxTheta = f_one.
Proof.
  intros th G. destruct (good_theta_fraction th G) as (F & B). pose proof (bpow_gt_0 radix2 (-63)). split; auto. split; [lra|].
  apply finite_1; [vm_compute; reflexivity|]. destruct (theta_fraction_spec MaxTheta) as (_ & _ & V).
  { split; [unfold MaxTheta; lia|reflexivity]. }
  rewrite V, <- N_val, max_theta_val by (unfold MaxTheta; lia). unfold Rdiv. rewrite Rinv_r by (apply Rgt_not_eq, bpow_gt_0).
  apply (rnd_id 1). rewrite <- one_val. apply fmt_B.
Qed.

(** Out of estimation mode the answers are exact: the estimate and both bounds are the count, for any numStdDevs. *)
Theorem exact_mode_is_exact : forall flog fpow fuel empty n sd, (n <= 2 ^ 53)%N ->
  B2R (estimate MaxTheta n) = NtoR n /\
  lower_bound flog fpow fuel empty MaxTheta n sd = Some (Ok (f_of_N n)) /\
  upper_bound flog fpow fuel empty MaxTheta n sd = Some (Ok (f_of_N n)) /\ B2R (f_of_N n) = NtoR n.
Proof.
  intros flog fpow fuel empty n sd Hn.
  assert (G : good_theta MaxTheta) by (split; [unfold MaxTheta; lia|reflexivity]).
  split; [|split; [|split]]; try reflexivity; [|apply N_exact; auto].
  destruct (estimate_spec MaxTheta n G) as (_ & _ & V); [lia|]. rewrite V.
  destruct (theta_is_a_fraction MaxTheta G) as (_ & _ & T). rewrite T, one_val, N_exact by auto. unfold Rdiv. rewrite Rinv_1, Rmult_1_r.
  apply rnd_id. apply fmt_IZR. lia.
Qed.

(** The estimate is never below the number retained, grows with it and shrinks as theta grows. *)
Theorem estimate_order : forall th th' n n', good_theta th -> good_theta th' -> (n <= n' < 2 ^ 64)%N -> (th' <= th)%N ->
  is_finite (estimate th n) = true /\ B2R (f_of_N n) <= B2R (estimate th n) /\ B2R (estimate th n) <= B2R (estimate th' n').
Proof.
  intros th th' n n' G G' Hn Ht. destruct (estimate_spec th n G) as (F & L & V); [lia|].
  destruct (estimate_spec th' n' G') as (_ & _ & V'); [lia|]. split; auto. split; auto. rewrite V, V'. apply rnd_le.
  destruct (theta_fraction_spec th G) as (_ & B & T). destruct (theta_fraction_spec th' G') as (_ & B' & T').
  pose proof (bpow_gt_0 radix2 (-63)). destruct (N_bnd n) as (_ & P & _); [lia|]. apply Rmult_le_compat; auto.
  - left. apply Rinv_0_lt_compat. lra.
  - rewrite !N_val by lia. apply rnd_le. apply IZR_le. lia.
  - apply Rinv_le; [lra|]. rewrite T, T'. apply rnd_le. apply Rmult_le_compat_r; [left; apply Rinv_0_lt_compat, bpow_gt_0|].
    apply rnd_le. apply IZR_le. lia.
Qed.

(** The estimate is count * (2^63 - 1) / Theta64() up to rounding. *)
Theorem estimate_value : forall th n, good_theta th -> (n <= 2 ^ 53)%N ->
  Rabs (B2R (estimate th n) - NtoR n * NtoR MaxTheta / NtoR th) <= bpow radix2 (-51) * (NtoR n * NtoR MaxTheta / NtoR th).
Proof.
  intros th n G Hn. destruct (estimate_spec th n G) as (_ & _ & V); [lia|]. rewrite V, N_exact by auto.
  destruct (N.eq_dec n 0) as [->|Nz].
  { unfold NtoR at 1 2 4. cbn [Z.of_N]. unfold Rdiv. rewrite !Rmult_0_l, (rnd_id 0 fmt_0), Rminus_0_r, Rabs_R0. lra. }
  destruct (theta_fraction_spec th G) as (_ & B & T). destruct G as (G1 & G2).
  assert (Ht : 1 <= NtoR th) by (apply IZR_le; lia). assert (Hn1 : 1 <= NtoR n) by (apply IZR_le; lia).
  assert (Tb : NtoR th <= bpow radix2 63). { change (bpow radix2 63) with (IZR (2 ^ 63)). apply IZR_le. unfold MaxTheta in G2. lia. }
  assert (M : NtoR MaxTheta = bpow radix2 63 * (1 - bpow radix2 (-63))).
  { rewrite Rmult_minus_distr_l, <- bpow_plus. change (bpow radix2 (63 + -63)) with 1. rewrite Rmult_1_r.
    change (bpow radix2 63) with (IZR (2 ^ 63)). rewrite <- minus_IZR. reflexivity. }
  destruct (rnd_rel (NtoR th)) as (e1 & E1 & R1).
  { rewrite Rabs_pos_eq by lra. apply Rle_trans with 1; auto. change 1 with (bpow radix2 0). apply bpow_le. lia. }
  assert (s53 : bpow radix2 (-53) < / 64) by (change (/ 64) with (bpow radix2 (-6)); apply bpow_lt; lia).
  assert (s63 : bpow radix2 (-63) <= bpow radix2 (-53)) by (apply bpow_le; lia). pose proof (bpow_gt_0 radix2 (-63)) as p63.
  assert (s51 : bpow radix2 (-51) = 4 * bpow radix2 (-53)) by (change (-51)%Z with (2 + -53)%Z; rewrite bpow_plus; reflexivity).
  apply Rabs_le_inv in E1. set (u := bpow radix2 (-53)) in *. set (w := bpow radix2 (-63)) in *. set (X := bpow radix2 63) in *.
  assert (pX : 0 < X) by apply bpow_gt_0.
  assert (T' : B2R (theta_fraction th) = NtoR th * (1 + e1) / X).
  { rewrite T, R1. apply rnd_id. rewrite <- R1. unfold X, Rdiv. rewrite <- bpow_opp. 
    rewrite <- (N_val th) by (unfold MaxTheta in G2; lia).
    destruct (Req_dec (B2R (f_of_N th)) 0) as [Z|Z]. { rewrite Z, Rmult_0_l. apply fmt_0. }
    apply mult_bpow_exact_FLT; [apply fmt_B|]. rewrite N_val by (unfold MaxTheta in G2; lia).
    assert (1 <= mag radix2 (rnd (NtoR th)))%Z; [|unfold SpecFloat.emin; lia]. apply mag_ge_bpow. change (bpow radix2 (1 - 1)) with 1.
    rewrite Rabs_pos_eq; [apply (rnd_ge 1); [rewrite <- one_val; apply fmt_B|auto]|]. apply rnd_nonneg. lra. }
  assert (q0 : 0 < B2R (theta_fraction th)) by lra.
  destruct (rnd_rel (NtoR n / B2R (theta_fraction th))) as (e2 & E2 & R2).
  { assert (1 <= NtoR n / B2R (theta_fraction th)).
    { apply Rmult_le_reg_r with (B2R (theta_fraction th)); auto. unfold Rdiv. rewrite Rmult_assoc, Rinv_l by lra. lra. }
    rewrite Rabs_pos_eq by lra. apply Rle_trans with 1; auto. change 1 with (bpow radix2 0). apply bpow_le. lia. }
  rewrite R2, T', M. apply Rabs_le_inv in E2. fold u in E2.
  set (A := NtoR n * X / NtoR th).
  assert (PA : 0 < A) by (unfold A; apply Rmult_lt_0_compat; [apply Rmult_lt_0_compat; lra|apply Rinv_0_lt_compat; lra]).
  assert (E3 : NtoR n / (NtoR th * (1 + e1) / X) * (1 + e2) - NtoR n * (X * (1 - w)) / NtoR th = A * ((1 + e2) / (1 + e1) - (1 - w))).
  { unfold A. field. repeat split; lra. }
  rewrite E3. replace (NtoR n * (X * (1 - w)) / NtoR th) with (A * (1 - w)) by (unfold A; field; lra).
  rewrite Rabs_mult, (Rabs_pos_eq A) by lra. rewrite s51.
  assert (K : Rabs ((1 + e2) / (1 + e1) - (1 - w)) <= 4 * u * (1 - w)).
  { assert (E4 : (1 + e2) / (1 + e1) - (1 - w) = (e2 - e1 + w + w * e1) / (1 + e1)) by (field; lra). rewrite E4.
    unfold Rdiv. rewrite Rabs_mult, Rabs_inv by lra. apply Rmult_le_reg_r with (Rabs (1 + e1)). { apply Rabs_pos_lt. lra. }
    rewrite Rmult_assoc, Rinv_l, Rmult_1_r by (apply Rabs_no_R0; lra). rewrite (Rabs_pos_eq (1 + e1)) by lra. apply Rle_trans with (3 * u + u / 8).
    - apply Rabs_le. split; nra.
    - assert (63 / 64 * (63 / 64) <= (1 - w) * (1 + e1)) by nra. assert (0 < u) by apply bpow_gt_0. nra. }
  nra.
Qed.

(** In every mode: count <= LowerBound <= Estimate <= UpperBound, whenever they are returned; none of them is NaN, and
    the lower bound is finite. *)
Theorem bounds_in_order : forall flog fpow fuel empty th n sd, log_like flog -> good_theta th -> (n < 2 ^ 64)%N ->
  (forall lb, lower_bound flog fpow fuel empty th n sd = Some (Ok lb) ->
     is_finite lb = true /\ B2R (f_of_N n) <= B2R lb <= B2R (estimate th n)) /\
  (forall ub, upper_bound flog fpow fuel empty th n sd = Some (Ok ub) ->
     (estimation_mode empty th = true -> fle (estimate th n) ub = true) /\
     (estimation_mode empty th = false -> ub = f_of_N n)).
Proof.
  intros flog fpow fuel empty th n sd Lg G Hn.
  destruct (estimate_spec th n G Hn) as (Fe & Le & _). pose proof (good_theta_fraction th G) as Gf. pose proof (N_bnd n Hn) as (Fn & _).
  unfold lower_bound, upper_bound. destruct (estimation_mode empty th) eqn:Em.
  - unfold bb_lower, bb_upper. rewrite (theta_valid th G). destruct (sd_invalid sd) eqn:Es; [split; discriminate|].
    apply sd_valid in Es. fold (estimate th n). split.
    + intros lb E. pose proof (approx_lb_ok flog fpow fuel n _ sd Lg Gf Hn Es) as O.
      destruct (approx_lb _ _ _ _ _ _) as [[v| |]|]; cbn [map_ok] in E; try discriminate E. cbn [ok_or] in O.
      assert (X : lb = fmin (estimate th n) (fmax (f_of_N n) v)) by congruence. clear E. subst lb.
      destruct (fmax_spec (f_of_N n) v) as (N1 & M1 & M2 & _); auto using finite_not_nan.
      destruct (fmin_spec (estimate th n) (fmax (f_of_N n) v)) as (N2 & K1 & K2 & K3); auto using finite_not_nan.
      assert (L1 : fle (f_of_N n) (fmin (estimate th n) (fmax (f_of_N n) v)) = true).
      { destruct K3 as [-> | ->]; auto. apply fle_spec; auto. }
      assert (F : is_finite (fmin (estimate th n) (fmax (f_of_N n) v)) = true).
      { destruct (fmin (estimate th n) (fmax (f_of_N n) v)) as [|[]| |]; auto.
        - destruct (f_of_N n) as [[]|[]| |[]]; discriminate.
        - destruct (estimate th n) as [[]|[]| |[]]; discriminate. }
      split; auto. split; apply fle_spec; auto.
    + intros ub E. split; [|discriminate]. intros _. pose proof (approx_ub_ok flog fpow fuel n _ sd Lg Gf Hn Es) as O.
      destruct (approx_ub _ _ _ _ _ _) as [[v| |]|]; cbn [map_ok] in E; try discriminate E. cbn [ok_or] in O.
      assert (X : ub = fmax (estimate th n) v) by congruence. subst ub. apply fmax_spec; auto using finite_not_nan.
  - split.
    + intros lb E. assert (lb = f_of_N n) by congruence. subst lb. split; auto. split; auto. lra.
    + intros ub E. split; [discriminate|]. congruence.
Qed.

(** Outcomes: the bounds always return (no panic, no endless loop: fuel 15000 is enough for the loops); in estimation mode
    they return an error exactly for numStdDevs other than 1, 2, 3. *)
Theorem bounds_outcomes : forall flog fpow fuel empty th n sd, log_like flog -> pow_like fpow -> good_theta th -> (n < 2 ^ 64)%N ->
  enough fuel ->
  (estimation_mode empty th = true -> ~ (1 <= sd <= 3)%nat ->
     lower_bound flog fpow fuel empty th n sd = Some Err /\ upper_bound flog fpow fuel empty th n sd = Some Err) /\
  (estimation_mode empty th = false \/ (1 <= sd <= 3)%nat ->
     (exists lb, lower_bound flog fpow fuel empty th n sd = Some (Ok lb)) /\
     (exists ub, upper_bound flog fpow fuel empty th n sd = Some (Ok ub))).
Proof.
  intros flog fpow fuel empty th n sd Lg Pw G Hn En. pose proof (good_theta_fraction th G) as Gf.
  unfold lower_bound, upper_bound. destruct (estimation_mode empty th) eqn:Em; (split; [|]); try discriminate; intros H.
  - intros Hs. unfold bb_lower, bb_upper. rewrite (theta_valid th G). destruct (sd_invalid sd) eqn:Es; auto. apply sd_valid in Es. contradiction.
  - destruct H as [H|H]; [discriminate|]. unfold bb_lower, bb_upper. rewrite (theta_valid th G), (proj2 (sd_valid sd) H). split.
    + pose proof (approx_lb_ok flog fpow fuel n _ sd Lg Gf Hn H) as O. pose proof (approx_lb_no_err flog fpow fuel n _ sd Pw Gf H) as O2.
      pose proof (approx_lb_ends flog fpow fuel n _ sd Pw Gf H En) as O3.
      destruct (approx_lb _ _ _ _ _ _) as [[v| |]|]; cbn [map_ok ok_or] in *; eauto; try contradiction; congruence.
    + pose proof (approx_ub_ok flog fpow fuel n _ sd Lg Gf Hn H) as O. pose proof (approx_ub_no_err flog fpow fuel n _ sd Pw Gf H) as O2.
      pose proof (approx_ub_ends flog fpow fuel n _ sd Pw Gf H En) as O3.
      destruct (approx_ub _ _ _ _ _ _) as [[v| |]|]; cbn [map_ok ok_or] in *; eauto; try contradiction; congruence.
  - split; eauto.
Qed.

(** With no retained entry and Theta64() below 2^9 (possible only with a tiny sampling probability) the upper bound is 0. *)
Theorem upper_bound_covers_refuted : forall flog fpow fuel sd, log_like flog -> (1 <= sd <= 3)%nat ->
  exists ub, upper_bound flog fpow fuel false 100 0 sd = Some (Ok ub) /\ B2R ub = 0.
Proof.
  intros flog fpow fuel sd (L1 & L2) Hs. unfold upper_bound. change (estimation_mode false 100) with true.
  assert (G : good_theta 100) by (split; [lia|unfold MaxTheta; lia]).
  unfold bb_upper. rewrite (theta_valid _ G), (proj2 (sd_valid sd) Hs).
  destruct (delta_ok sd Hs) as (d & Ed & Fd & Bd & _). unfold approx_ub.
  replace (feq (theta_fraction 100) f_one) with false by (vm_compute; reflexivity). change (0 =? 0)%N with true. rewrite Ed. cbn [with_tab map_ok].
  assert (E : fsub f_one (theta_fraction 100) = f_one).
  { apply finite_1; [vm_compute; reflexivity|].
    assert (X : feq (fsub f_one (theta_fraction 100)) f_one = true) by (vm_compute; reflexivity).
    assert (Fa : is_finite (fsub f_one (theta_fraction 100)) = true) by (vm_compute; reflexivity).
    assert (Fb : is_finite f_one = true) by (vm_compute; reflexivity).
    rewrite (proj1 (feq_spec _ _ Fa Fb) X). apply one_val. }
  rewrite E, L2. destruct (L1 d Fd Bd) as (Fl & Nl). clear E. destruct (flog d) as [| | |s m e Hm] eqn:El; try discriminate Fl; cbn [B2R] in Nl; [lra|].
  assert (s = true). { destruct s; auto. exfalso. assert (0 < F2R (Float radix2 (cond_Zopp false (Z.pos m)) e)) by (apply F2R_gt_0; reflexivity). lra. }
  subst s. cbn [fdiv Bdiv f_zero xorb]. eexists. split; [reflexivity|].
  assert (X : fmax (fdiv (f_of_N 0) (theta_fraction 100)) (fceil (B754_infinity true)) = fdiv (f_of_N 0) (theta_fraction 100)) by (vm_compute; reflexivity).
  assert (Y : is_zero (fdiv (f_of_N 0) (theta_fraction 100)) = true) by (vm_compute; reflexivity).
  unfold fdiv in X, Y |- *. change (xorb true false) with true. rewrite X. destruct (Bdiv mode_NE (f_of_N 0) (theta_fraction 100)); try discriminate Y. reflexivity.
Qed.

(** *** The sampling probability *)
(** The starting theta is p * 2^63 rounded down (for p < 1), so it is at least 1 exactly when p >= 2^-63. *)
Theorem starting_theta_range : forall p th, is_finite p = true -> starting_theta p = Some th ->
  0 < B2R p <= 1 /\ (th <= MaxTheta)%N /\ ((1 <= th)%N <-> bpow radix2 (-63) <= B2R p) /\
  (B2R p < 1 -> NtoR th <= B2R p * bpow radix2 63 < NtoR th + 1).
Proof.
  intros p th F E. unfold starting_theta in E. destruct (fle p f_zero) eqn:E1; [discriminate E|]. destruct (flt f_one p) eqn:E2; [discriminate E|].
  cbn [orb] in E. assert (P1 : B2R p <= 1) by (rewrite <- one_val; apply flt_false; auto).
  assert (P0 : 0 < B2R p). { destruct (Rle_or_lt (B2R p) 0) as [X|X]; auto. change 0 with (B2R f_zero) in X. apply fle_spec in X; auto. congruence. }
  split; [lra|]. destruct (flt p f_one) eqn:E3.
  2:{ assert (X : th = MaxTheta) by congruence. subst th. apply flt_false in E3; auto. rewrite one_val in E3. split; [lia|]. split.
      - split; intros _; [|unfold MaxTheta; lia]. apply Rle_trans with 1; auto. change 1 with (bpow radix2 0). apply bpow_le. lia.
      - lra. }
  apply flt_spec in E3; auto. rewrite one_val in E3.
  assert (X : th = Z.to_N (Btrunc (fmul (f_of_N MaxTheta) p))) by congruence. clear E.
  assert (Up : B2R p <= 1 - bpow radix2 (-53)).
  { change (1 - bpow radix2 (-53)) with (1 - / IZR (2 ^ 53)). 
    assert (Q : B2R p <= pred radix2 (SpecFloat.fexp 53 1024) 1).
    { apply pred_ge_gt; auto; try typeclasses eauto; [apply fmt_B|rewrite <- one_val; apply fmt_B]. }
    eapply Rle_trans; [exact Q|]. rewrite pred_eq_pos by lra. unfold pred_pos.
    replace (mag radix2 1 : Z) with 1%Z by (symmetry; apply mag_unique; cbn; rewrite Rabs_R1; lra).
    change (bpow radix2 (1 - 1)) with 1. rewrite Req_bool_true by reflexivity.
    change (SpecFloat.fexp 53 1024 (1 - 1)) with (-53)%Z. apply Rle_refl. }
  pose proof (bpow_gt_0 radix2 63) as P63.
  assert (M : B2R (fmul (f_of_N MaxTheta) p) = bpow radix2 63 * B2R p /\ 0 <= bpow radix2 63 * B2R p).
  { split; [|nra]. destruct (mul_spec (f_of_N MaxTheta) p 63) as (V & _ & _); try lia; auto.
    { rewrite max_theta_val, Rabs_pos_eq by nra. nra. }
    rewrite V, max_theta_val. apply rnd_id. rewrite Rmult_comm. apply mult_bpow_pos_exact_FLT; [apply fmt_B|lia]. }
  destruct M as (M & M0).
  assert (T : Btrunc (fmul (f_of_N MaxTheta) p) = Zfloor (bpow radix2 63 * B2R p)).
  { apply eq_IZR. rewrite Btrunc_correct by typeclasses eauto. rewrite M, round_FIX_IZR. rewrite Ztrunc_floor; auto. }
  rewrite T in X. pose proof (Zfloor_lb (bpow radix2 63 * B2R p)) as Lb. pose proof (Zfloor_ub (bpow radix2 63 * B2R p)) as Ub.
  assert (Z0 : (0 <= Zfloor (bpow radix2 63 * B2R p))%Z). { apply Zfloor_lub. exact M0. }
  assert (NT : NtoR th = IZR (Zfloor (bpow radix2 63 * B2R p))) by (unfold NtoR; f_equal; lia).
  split; [|split].
  - apply N2Z.inj_le. apply le_IZR. fold (NtoR th). rewrite NT. eapply Rle_trans; [exact Lb|].
    apply Rle_trans with (bpow radix2 63 * (1 - bpow radix2 (-53))). { apply Rmult_le_compat_l; lra. }
    rewrite Rmult_minus_distr_l, Rmult_1_r, <- bpow_plus. change (bpow radix2 63) with (IZR (2 ^ 63)).
    change (bpow radix2 (63 + -53)) with (IZR (2 ^ 10)). rewrite <- minus_IZR. apply IZR_le. vm_compute. discriminate.
  - assert (B1 : bpow radix2 63 * bpow radix2 (-63) = 1) by (rewrite <- bpow_plus; reflexivity). split; intros H.
    + assert (1 <= NtoR th) by (apply IZR_le; lia). nra.
    + apply N2Z.inj_le. apply le_IZR. fold (NtoR th). rewrite NT. apply IZR_le. apply Zfloor_lub. change (IZR 1) with 1. change (IZR (Z.of_N 1)) with 1. nra.
  - intros _. rewrite NT. lra.
Qed.

(** With a sampling probability under 2^-63 the estimate of a used sketch is NaN and its bounds are errors. *)
Theorem tiny_probability_refuted : forall flog fpow fuel sd, exists p, is_finite p = true /\ starting_theta p = Some 0%N /\
  is_nan (estimate (theta64_method false 0) 0) = true /\
  lower_bound flog fpow fuel false (theta64_method false 0) 0 sd = Some Err /\
  upper_bound flog fpow fuel false (theta64_method false 0) 0 sd = Some Err.
Proof. intros. exists (f_lit 1 (-100)). repeat split; vm_compute; reflexivity. Qed.

(** *** Theta sketches: every history of updates, trims and resets *)
Definition nonzero_distinct (hs : list N) : nat := length (nodup N.eq_dec (filter (fun h => negb (h =? 0)%N) hs)).

Theorem theta_sketch_estimates : forall flog fpow fuel lgK rf th0 ops, log_like flog -> pow_like fpow ->
  good_params lgK rf th0 -> (1 <= th0)%N ->
  exists t, urun (new_update_sketch lgK rf th0) ops = Some t /\
    let empty := t_empty t in
    let theta := theta64_method empty (theta_of t) in
    let count := N.of_nat (t_num t) in
    good_theta theta /\ (count < 2 ^ 32)%N /\
    (forall sd lb, lower_bound flog fpow fuel empty theta count sd = Some (Ok lb) ->
        is_finite lb = true /\ NtoR count <= B2R lb <= B2R (estimate theta count)) /\
    (forall sd ub, upper_bound flog fpow fuel empty theta count sd = Some (Ok ub) -> fle (estimate theta count) ub = true) /\
    (estimation_mode empty theta = false -> (forall h, In h (seen ops) -> (h < MaxTheta)%N) ->
       count = N.of_nat (nonzero_distinct (seen ops)) /\ B2R (estimate theta count) = NtoR count /\
       forall sd, lower_bound flog fpow fuel empty theta count sd = Some (Ok (f_of_N count)) /\
                  upper_bound flog fpow fuel empty theta count sd = Some (Ok (f_of_N count))).
Proof.
  intros flog fpow fuel lgK rf th0 ops Lg Pw G H0.
  destruct (theta_content lgK rf th0 ops G) as (t & E & ND & M & Cn & Em).
  destruct (theta_meaningful lgK rf th0 ops G) as (t' & E' & Th). assert (t' = t) by congruence. subst t'.
  destruct (run_new lgK rf th0 ops G) as (t' & E'' & I). assert (t' = t) by congruence. subst t'. clear E' E''.
  exists t. split; auto. cbv zeta. destruct G as (GK & GR & GT).
  assert (GT2 : (1 <= theta_of t <= MaxTheta)%N).
  { destruct Th as [->|(A & B & C)]; [lia|]. split; [|lia].
    assert (P : (0 < pow2 lgK)%nat) by (unfold pow2; lia).
    destruct (all_of t) as [|h r] eqn:Ea; [cbn in C; lia|]. destruct (proj1 (M h) (or_introl eq_refl)) as (_ & X & Y). lia. }
  set (theta := theta64_method (t_empty t) (theta_of t)). set (count := N.of_nat (t_num t)).
  assert (G2 : good_theta theta). { unfold theta, theta64_method. destruct (t_empty t); auto. split; [unfold MaxTheta; lia|lia]. }
  assert (C32 : (count < 2 ^ 32)%N).
  { destruct I. assert (X : (compute_capacity (t_lgCur t) (t_lgNom t) <= pow2 (t_lgCur t))%nat).
    { unfold compute_capacity. destruct (_ <=? _)%N; [apply Nat.div_le_upper_bound; lia|]. apply Nat.div_le_upper_bound; lia. }
    assert (Y : (N.of_nat (pow2 (t_lgCur t)) <= 2 ^ 27)%N).
    { unfold pow2. rewrite N2Nat.id. apply N.pow_le_mono_r; [lia|]. unfold MinLgK, MaxLgK in *. lia. }
    unfold count. lia. }
  assert (V : B2R (f_of_N count) = NtoR count) by (apply N_exact; lia).
  split; auto. split; auto.
  assert (B : forall sd, (forall lb, lower_bound flog fpow fuel (t_empty t) theta count sd = Some (Ok lb) ->
     is_finite lb = true /\ B2R (f_of_N count) <= B2R lb <= B2R (estimate theta count)) /\
     (forall ub, upper_bound flog fpow fuel (t_empty t) theta count sd = Some (Ok ub) ->
     (estimation_mode (t_empty t) theta = true -> fle (estimate theta count) ub = true) /\
     (estimation_mode (t_empty t) theta = false -> ub = f_of_N count))).
  { intros sd. apply bounds_in_order; auto. lia. }
  assert (EM : estimation_mode (t_empty t) theta = false -> theta = MaxTheta).
  { unfold estimation_mode, theta, theta64_method. destruct (t_empty t); auto. cbn [negb]. rewrite andb_true_r. intros X. apply N.ltb_ge in X. lia. }
  split; [|split].
  - intros sd lb H. rewrite <- V. apply (B sd); auto.
  - intros sd ub H. destruct (proj2 (B sd) ub H) as (B1 & B2). destruct (estimation_mode (t_empty t) theta) eqn:Es; auto.
    rewrite B2 by auto. rewrite (EM eq_refl). destruct (estimate_spec MaxTheta count) as (Fe & _); [rewrite <- (EM eq_refl); auto|lia|].
    apply fle_spec; auto; [apply (N_bnd count); lia|].
    destruct (exact_mode_is_exact flog fpow fuel true count sd) as (X & _ & _ & Y); [lia|]. rewrite X, Y. lra.
  - intros Es Hh. rewrite (EM Es). destruct (exact_mode_is_exact flog fpow fuel (t_empty t) count 1) as (X & _); [lia|]. split; [|split; auto].
    + unfold count. f_equal. rewrite Cn. unfold nonzero_distinct.
      assert (TH : t_empty t = true \/ theta_of t = MaxTheta).
      { pose proof (EM Es) as Y. unfold theta, theta64_method in Y. destruct (t_empty t); auto. }
      apply Nat.le_antisymm; apply NoDup_incl_length; auto using NoDup_nodup; intros h Hi.
      * apply nodup_In. apply filter_In. apply M in Hi. split; [tauto|]. destruct (N.eqb_spec h 0); [lia|reflexivity].
      * apply nodup_In, filter_In in Hi. destruct Hi as (A & Z). apply M. split; auto.
        destruct (N.eqb_spec h 0); [discriminate Z|]. split; [lia|]. destruct TH as [TE| ->]; [|auto].
        exfalso. destruct I. destruct ui_emsn as (S0 & _); [congruence|]. rewrite S0 in A. contradiction.
Qed.

(** *** Tuple sketches: bounds for a subset of the retained entries *)
Theorem subset_bounds_in_order : forall flog fpow fuel empty th n sd k, log_like flog -> good_theta th -> (n < 2 ^ 64)%N ->
  let m := N.min k n in
  (forall lb, lower_bound_from_subset flog fpow fuel empty th n sd k = Some (Ok lb) ->
     is_finite lb = true /\ B2R (f_of_N m) <= B2R lb <= B2R (estimate th m)) /\
  (forall ub, upper_bound_from_subset flog fpow fuel empty th n sd k = Some (Ok ub) ->
     (estimation_mode empty th = true -> fle (estimate th m) ub = true) /\
     (estimation_mode empty th = false -> ub = f_of_N m)) /\
  ((n <= k)%N -> lower_bound_from_subset flog fpow fuel empty th n sd k = lower_bound flog fpow fuel empty th n sd /\
                 upper_bound_from_subset flog fpow fuel empty th n sd k = upper_bound flog fpow fuel empty th n sd).
Proof.
  intros flog fpow fuel empty th n sd k Lg G Hn m. unfold lower_bound_from_subset, upper_bound_from_subset. fold m.
  destruct (bounds_in_order flog fpow fuel empty th m sd Lg G) as (A & B); [unfold m; lia|]. split; auto. split; auto.
  intros H. unfold m. rewrite N.min_r by auto. auto.
Qed.

(** ** Examples *)
Definition toy_log (x : f64) : f64 := if feq x f_one then f_zero else f_of_Z (-1).
Definition toy_pow (p k : f64) : f64 := f_one.
Example toy_log_ok : log_like toy_log.
Proof.
  split; [|vm_compute; reflexivity]. intros x F B. unfold toy_log. destruct (feq x f_one) eqn:E.
  - apply feq_spec in E; auto. rewrite one_val in E. lra.
  - split; [vm_compute; reflexivity|]. assert (X : flt (f_of_Z (-1)) f_zero = true) by (vm_compute; reflexivity). apply flt_spec in X; auto.
Qed.
Example toy_pow_ok : pow_like toy_pow.
Proof.
  intros p k F B Hk _. unfold toy_pow. split; [vm_compute; reflexivity|]. rewrite one_val.
  assert (B2R p ^ k <= 1 ^ k) by (apply pow_incr; lra). rewrite pow1 in H. assert (0 <= B2R p ^ k) by (apply pow_le; lra).
  pose proof (bpow_gt_0 radix2 (-20)). nra.
Qed.
(** 200 entries retained at theta 1/2: estimate 400, bounds 379 and 422 at one standard deviation (rounded down) *)
Example bounds_example :
  match lower_bound toy_log toy_pow 10 false (2 ^ 62) 200 1, upper_bound toy_log toy_pow 10 false (2 ^ 62) 200 1 with
  | Some (Ok lb), Some (Ok ub) => (Btrunc lb, Btrunc (estimate (2 ^ 62) 200), Btrunc ub)
  | _, _ => (0, 0, 0)%Z
  end = (379, 400, 422)%Z.
Proof. vm_compute. reflexivity. Qed.
(** 30 entries retained at theta 1/100: the tables are used *)
Example bounds_example_table :
  match lower_bound toy_log toy_pow 10 false (MaxTheta / 100) 30 2, upper_bound toy_log toy_pow 10 false (MaxTheta / 100) 30 2 with
  | Some (Ok lb), Some (Ok ub) => (Btrunc lb, Btrunc (estimate (MaxTheta / 100) 30), Btrunc ub)
  | _, _ => (0, 0, 0)%Z
  end = (2010, 3000, 4303)%Z.
Proof. vm_compute. reflexivity. Qed.

Print Assumptions theta_is_a_fraction.
Print Assumptions exact_mode_is_exact.
Print Assumptions estimate_order.
Print Assumptions estimate_value.
Print Assumptions bounds_in_order.
Print Assumptions bounds_outcomes.
Print Assumptions upper_bound_covers_refuted.
Print Assumptions starting_theta_range.
Print Assumptions tiny_probability_refuted.
Print Assumptions theta_sketch_estimates.
Print Assumptions subset_bounds_in_order.
