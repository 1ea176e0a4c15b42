(** * The ICON estimate inverts the expected number of coupons: the binary64 evaluation *)
From Coq Require Import ZArith Reals Rpower Bool Psatz.
From Flocq Require Import Core Relative BinarySingleNaN.
From Verif Require Import Base Bytes Arr FloatModel FloatProofs RankProofs HllEstModel HllEstProofs HllEstCoupon HllEstHip HllEstComp CpcEstTables CpcEstModel CpcEstKxp CpcEstConf CpcEstValue CpcIconBands CpcIcon CpcIconInv.
From Coq Require Import Rdefinitions.
Local Open Scope R_scope.
#[local] Opaque recentre range scaled sq_loop cov_lo cov_hi.
#[local] Opaque recentre range scaled sq_loop cov_lo cov_hi.

(** ** Horner's rule in binary64 *)
Fixpoint fh (l : list f64) (x : f64) : f64 := match l with [] => f_zero | [a] => a | a :: r => fadd (fmul (fh r x) x) a end.
Lemma eval_poly_fh x : forall l, l <> [] -> eval_poly l x = Some (fh l x).
Proof.
  induction l as [|a l IH]; intros N; [contradiction|]. destruct l as [|b l]; [reflexivity|]. specialize (IH ltac:(discriminate)). unfold eval_poly in *. cbn [rev] in *. destruct (rev l ++ [b]) as [|c r] eqn:E; [discriminate IH|]. cbn [app]. rewrite fold_left_app. cbn [fold_left]. injection IH as ->. reflexivity.
Qed.
Lemma rnd_err x : Rabs (rnd x - x) <= u53 * Rabs x + bpow radix2 (-1000).
Proof.
  pose proof (bpow_gt_0 radix2 (-1000)) as P. destruct u53_small as (U & _). destruct (Rle_or_lt (bpow radix2 (-1022)) (Rabs x)) as [H|H].
  - destruct (rc_rnd x H) as (t & A & ->). replace (x * (1 + t) - x) with (t * x) by ring. rewrite Rabs_mult. assert (Rabs t * Rabs x <= u53 * Rabs x) by (apply Rmult_le_compat_r; auto using Rabs_pos). lra.
  - apply Rabs_lt_inv in H as H'. assert (FB : fmt (bpow radix2 (-1022))) by (apply fmt_bpow; lia). assert (A : rnd x <= bpow radix2 (-1022)) by (apply rnd_le_gen; auto; lra). assert (B : - bpow radix2 (-1022) <= rnd x) by (apply rnd_ge; [apply generic_format_opp; auto|lra]).
    assert (E : 4 * bpow radix2 (-1022) <= bpow radix2 (-1000)). { change 4 with (bpow radix2 2). rewrite <- bpow_plus. apply bpow_le; lia. } pose proof (Rabs_pos x). assert (0 <= u53 * Rabs x) by (apply Rmult_le_pos; lra). apply Rabs_le. lra.
Qed.
Fixpoint mass (l : list (Z * Z)) : R := match l with [] => bpow radix2 (-40) | p :: r => Rabs (IZR (fst p) * bpow radix2 (snd p)) + 3 * mass r end.
Lemma mass_pos l : bpow radix2 (-40) <= mass l.
Proof. pose proof (bpow_gt_0 radix2 (-40)). induction l as [|p l IH]; cbn [mass]; [lra|]. pose proof (Rabs_pos (IZR (fst p) * bpow radix2 (snd p))). lra. Qed.
Lemma tiny_mass l : bpow radix2 (-1000) <= u53 * mass l.
Proof. destruct u53_small as (U & _). apply Rle_trans with (u53 * bpow radix2 (-40)); [unfold u53; rewrite <- bpow_plus; apply bpow_le; lia|]. apply Rmult_le_compat_l; [lra|apply mass_pos]. Qed.
Definition lits (l : list (Z * Z)) : list f64 := map (fun p => f_lit (fst p) (snd p)) l.
Lemma lpoly_mass x : 0 <= x <= 3 -> forall l, Rabs (lpoly l x) <= mass l.
Proof.
  intros Hx. induction l as [|p l IH]; cbn [lpoly mass]; [rewrite Rabs_R0; apply bpow_ge_0|]. eapply Rle_trans; [apply Rabs_triang|]. apply Rplus_le_compat_l. rewrite Rabs_mult, (Rabs_pos_eq x) by lra. apply Rmult_le_compat; try lra. apply Rabs_pos.
Qed.
Lemma fh_err (x : f64) : fb x 2 -> 0 <= B2R x <= 3 -> forall l, (length l <= 40)%nat -> Forall (fun p => (Z.abs (fst p) <= 2 ^ 53)%Z /\ (-1074 <= snd p <= 900)%Z /\ fb (f_lit (fst p) (snd p)) 6) l ->
  fb (fh (lits l) x) (6 + 3 * Z.of_nat (length l)) /\ Rabs (B2R (fh (lits l) x) - lpoly l (B2R x)) <= 8 * u53 * INR (length l) * mass l.
Proof.
  intros Fx Hx. destruct u53_small as (U0 & U1). induction l as [|p l IH]; intros L FA.
  - cbn [lits map fh lpoly length INR]. change (B2R f_zero) with 0. split; [split; [reflexivity|change (B2R f_zero) with 0; rewrite Rabs_R0; apply bpow_ge_0]|]. rewrite Rminus_0_r, Rabs_R0. lra.
  - inversion FA as [|? ? (M & E & B) FA']; subst. destruct (lit_spec (fst p) (snd p) M E) as (_ & Vp). set (a := IZR (fst p) * bpow radix2 (snd p)) in *. cbn [length] in L. destruct (IH ltac:(lia) FA') as (F & D). clear IH.
    set (n := INR (length l)) in *. assert (Hn : 0 <= n <= 40) by (unfold n; split; [apply pos_INR|]; change 40 with (IZR (Z.of_nat 40)); rewrite INR_IZR_INZ; apply IZR_le; lia).
    pose proof (mass_pos l) as Mp. pose proof (tiny_mass l) as Tm. pose proof (bpow_gt_0 radix2 (-40)) as P40. pose proof (Rabs_pos a) as Pa. cbn [length]. rewrite S_INR. fold n. cbn [mass lpoly]. fold a. set (m := mass l) in *.
    assert (Pum : 0 <= u53 * m) by (apply Rmult_le_pos; lra). assert (Pua : 0 <= u53 * Rabs a) by (apply Rmult_le_pos; lra).
    destruct l as [|p' l'].
    + cbn [lits map fh length lpoly]. split; [eapply fb_le; [exact B|lia]|]. rewrite Vp. replace (a - (a + B2R x * 0)) with 0 by ring. rewrite Rabs_R0. unfold n. cbn [length INR]. apply Rmult_le_pos; lra.
    + set (q := p' :: l') in *. assert (E1 : fh (lits (p :: q)) x = fadd (fmul (fh (lits q) x) x) (f_lit (fst p) (snd p))) by reflexivity. rewrite E1. clear E1. set (t := fh (lits q) x) in *. set (h := lpoly q (B2R x)) in *.
      pose proof (lpoly_mass (B2R x) Hx q) as Hm. fold h in Hm. fold m in Hm. set (e := (6 + 3 * Z.of_nat (length q))%Z) in *. assert (He : (6 <= e <= 140)%Z) by (unfold e; lia).
      assert (F1 : fb (fmul t x) (e + 2)) by (apply fb_mul; auto; lia). assert (F2 : fb (f_lit (fst p) (snd p)) (e + 2)) by (eapply fb_le; [exact B|lia]).
      split; [replace (6 + 3 * Z.of_nat (S (length q)))%Z with (e + 2 + 1)%Z by (unfold e; lia); apply fb_add; auto; lia|].
      destruct (mul_spec t x (e + 2)) as (Vm & _ & _); try apply F; try apply Fx; [lia| |]. { rewrite Rabs_mult, bpow_plus. apply Rmult_le_compat; auto using Rabs_pos; [apply F|apply Fx]. }
      destruct (add_spec (fmul t x) (f_lit (fst p) (snd p)) (e + 2 + 1)) as (Va & _ & _); try apply F1; try apply F2; [lia| |].
      { eapply Rle_trans; [apply Rabs_triang|]. destruct F1 as (_ & F1). destruct F2 as (_ & F2). rewrite (bpow_plus radix2 (e + 2)). change (bpow radix2 1) with 2. lra. }
      rewrite Va, Vp. set (s := B2R (fmul t x)) in *. pose proof (rnd_err (B2R t * B2R x)) as R1. rewrite <- Vm in R1. pose proof (rnd_err (s + a)) as R2. set (v := rnd (s + a)) in *. clearbody v. set (T := B2R t) in *. set (X := B2R x) in *. clearbody s T X h m n. clear Va Vm F1 F2 F Vp M E B FA FA' L.
      assert (T2 : Rabs T <= 2 * m). { replace T with (h + (T - h)) by ring. eapply Rle_trans; [apply Rabs_triang|]. assert (8 * u53 * n * m <= 1 * m) by (apply Rmult_le_compat_r; [lra|]; assert (u53 * n <= u53 * 40) by (apply Rmult_le_compat_l; lra); lra). lra. }
      assert (TX : Rabs (T * X) <= 6 * m). { rewrite Rabs_mult, (Rabs_pos_eq X) by lra. replace (6 * m) with (2 * m * 3) by ring. apply Rmult_le_compat; try lra. apply Rabs_pos. }
      assert (UTX : u53 * Rabs (T * X) <= 6 * (u53 * m)) by (replace (6 * (u53 * m)) with (u53 * (6 * m)) by ring; apply Rmult_le_compat_l; lra).
      assert (S7 : Rabs s <= 7 * m). { replace s with (T * X + (s - T * X)) by ring. eapply Rle_trans; [apply Rabs_triang|]. assert (u53 * m <= / 1048576 * m) by (apply Rmult_le_compat_r; lra). lra. }
      assert (SA : u53 * Rabs (s + a) <= 7 * (u53 * m) + u53 * Rabs a). { replace (7 * (u53 * m) + u53 * Rabs a) with (u53 * (7 * m + Rabs a)) by ring. apply Rmult_le_compat_l; [lra|]. eapply Rle_trans; [apply Rabs_triang|lra]. }
      replace (v - (a + X * h)) with ((v - (s + a)) + ((s - T * X) + (T - h) * X)) by ring. eapply Rle_trans; [apply Rabs_triang|]. pose proof (Rabs_triang (s - T * X) ((T - h) * X)) as TR. rewrite (Rabs_mult (T - h)), (Rabs_pos_eq X) in TR by lra.
      assert (DX : Rabs (T - h) * X <= 8 * u53 * n * m * 3) by (apply Rmult_le_compat; try lra; apply Rabs_pos). assert (0 <= u53 * Rabs a * n) by (apply Rmult_le_pos; lra).
      replace (8 * u53 * (n + 1) * (Rabs a + 3 * m)) with (8 * (u53 * Rabs a * n) + 8 * (u53 * Rabs a) + 8 * u53 * n * m * 3 + 24 * (u53 * m)) by ring. lra.
Qed.

(** ** The polynomial range *)
Fixpoint zmass (l : list (Z * Z)) : Z := match l with [] => 2 ^ 28 | p :: r => Z.abs (fst p) * 2 ^ (snd p + 68) + 3 * zmass r end%Z.
Lemma zmass_ok : forall l, Forall (fun p => (-68 <= snd p)%Z) l -> IZR (zmass l) = bpow radix2 68 * mass l.
Proof.
  induction l as [|p l IH]; intros FA; cbn [zmass mass]; [change (2 ^ 28)%Z with (radix2 ^ 28)%Z; rewrite IZR_Zpower by lia; rewrite <- bpow_plus; reflexivity|]. inversion FA; subst. rewrite plus_IZR, !mult_IZR, IH by auto. change (2 ^ (snd p + 68))%Z with (radix2 ^ (snd p + 68))%Z. rewrite IZR_Zpower by lia.
  rewrite Rabs_mult, abs_IZR, (Rabs_pos_eq (bpow radix2 (snd p))) by apply bpow_ge_0. rewrite bpow_plus. ring.
Qed.
Lemma rows_checked : forallb (fun row => forallb (fun p => (Z.abs (fst p) <=? 2 ^ 53)%Z && (-68 <=? snd p)%Z && (snd p <=? 900)%Z) row && (zmass row <=? 2 ^ 94)%Z) icon_coeffs = true.
Proof. vm_compute. reflexivity. Qed.
Lemma bands_sane : forallb (fun b => (524288 <=? fst b)%Z && (snd b <=? 8388608)%Z) icon_bands = true.
Proof. vm_compute. reflexivity. Qed.
Lemma row_value row (x : f64) : In row icon_coeffs -> fb x 2 -> 0 <= B2R x <= 3 -> exists v, eval_poly (lits row) x = Some v /\ fb v 66 /\ Rabs (B2R v - lpoly row (B2R x)) <= / 524288.
Proof.
  intros H Fx Hx. destruct (row_good row H) as (L & F68 & _). pose proof rows_checked as C. rewrite forallb_forall in C. apply C in H as C'. apply andb_prop in C'. destruct C' as [C1 C2]. rewrite forallb_forall in C1. apply Z.leb_le in C2.
  pose proof coeffs_ok as CO. unfold coeff_ok in CO. apply andb_prop in CO. destruct CO as [_ CO]. rewrite forallb_forall in CO. apply CO in H as H6. apply andb_prop in H6. destruct H6 as [_ H6]. rewrite forallb_forall in H6.
  destruct (fh_err x Fx Hx row) as (F & D); [lia| |].
  { apply Forall_forall. intros p Hp. apply C1 in Hp as Hp1. apply andb_prop in Hp1. destruct Hp1 as [Hp1 A3]. apply andb_prop in Hp1. destruct Hp1 as [A1 A2]. apply Z.leb_le in A1, A2, A3. apply H6 in Hp. cbv zeta in Hp. apply andb_prop in Hp. destruct Hp. split; auto. split; [lia|]. apply fb_closed; auto; lia. }
  exists (fh (lits row) x). rewrite eval_poly_fh by (intros E; apply map_eq_nil in E; subst row; discriminate L). split; auto. split; [eapply fb_le; [exact F|lia]|]. eapply Rle_trans; [exact D|].
  apply IZR_le in C2. rewrite zmass_ok in C2 by auto. change (2 ^ 94)%Z with (radix2 ^ 94)%Z in C2. rewrite IZR_Zpower in C2 by lia. assert (M : mass row <= bpow radix2 26). { apply Rmult_le_reg_l with (bpow radix2 68); [apply bpow_gt_0|]. rewrite <- bpow_plus. exact C2. }
  rewrite L. replace (INR 20) with 20 by (cbn; lra). assert (U : u53 * bpow radix2 26 = / 134217728) by (unfold u53; rewrite <- bpow_plus; reflexivity). destruct u53_small as (U0 & _). apply Rle_trans with (8 * u53 * 20 * bpow radix2 26); [apply Rmult_le_compat_l; lra|]. replace (8 * u53 * 20 * bpow radix2 26) with (160 * (u53 * bpow radix2 26)) by ring. rewrite U. lra.
Qed.
Lemma thr_ok' lgK : 11 / 2 <= B2R (thr lgK) <= 23 / 4.
Proof.
  destruct (thr_ok lgK) as (F & B). split; [apply B|]. destruct (lit_spec 23 (-2)) as (F' & V); [lia|lia|]. replace (23 / 4) with (B2R (f_lit 23 (-2))) by (rewrite V; change (bpow radix2 (-2)) with (/ 4); lra). apply (fle_spec _ _ F F').
  unfold thr. destruct (lgK <? 14)%nat; vm_compute; reflexivity.
Qed.
Lemma cell y : 0 < y <= 23 / 4 -> exists i b, nth_error icon_bands i = Some b /\ INR i / 16 <= y <= INR (S i) / 16.
Proof.
  intros H. set (z := Zceil (16 * y)). assert (Z1 : (0 < z)%Z). { apply lt_IZR. apply Rlt_le_trans with (16 * y); [lra|apply Zceil_ub]. }
  assert (Z2 : (z <= 92)%Z) by (apply Zceil_glb; lra). pose proof (Zceil_ub (16 * y)) as UB. fold z in UB. assert (LB : IZR z - 1 < 16 * y). { pose proof (Zceil_lb (16 * y)) as Q. fold z in Q. lra. }
  destruct (nth_error icon_bands (Z.to_nat (z - 1))) as [b|] eqn:E; [|apply nth_error_None in E; destruct inversion_checked as (_ & IL); rewrite IL in E; lia].
  exists (Z.to_nat (z - 1)), b. split; auto. rewrite S_INR, INR_IZR_INZ, Z2Nat.id by lia. rewrite minus_IZR. lra.
Qed.
(** the float64 computation of the polynomial branch, as real arithmetic with its error *)
Lemma poly_branch lgK c row : (4 <= lgK <= 26)%nat -> (2 <= c)%Z -> In row icon_coeffs -> IZR c <= 23 / 4 * bpow radix2 (Z.of_nat lgK) ->
  exists v, eval_poly (lits row) (fdiv (f_of_Z c) (fmul f_2 (f_k lgK))) = Some v /\
  let ratio := fdiv (f_of_Z c) (f_k lgK) in
  let e := (let result := fmul (fmul (f_of_Z c) v) (fadd f_1 (fdiv (fmul (fmul ratio ratio) ratio) (f_lit 2349427896429339 (-45)))) in if fle (f_of_Z c) result then result else f_of_Z c) in
  Rabs (cov 64 (B2R e / bpow radix2 (Z.of_nat lgK)) - IZR c / bpow radix2 (Z.of_nat lgK)) <= IZR c / bpow radix2 (Z.of_nat lgK) / 16.
Proof.
  intros HK Hc2 HR Hc. destruct (f_k_val lgK ltac:(lia)) as (Fk & Vk). set (K := bpow radix2 (Z.of_nat lgK)) in *. assert (PK : 1 <= K <= bpow radix2 26) by (unfold K; split; [change 1 with (bpow radix2 0)|]; apply bpow_le; lia). change (bpow radix2 26) with 67108864 in PK.
  assert (Hc53 : (Z.abs c <= 2 ^ 53)%Z). { assert (c <= 6 * 67108864)%Z by (apply le_IZR; rewrite mult_IZR; lra). lia. } destruct (of_Z_exact c Hc53) as (Fc & Vc). assert (C2 : 2 <= IZR c) by (apply IZR_le; auto).
  set (y := IZR c / K). assert (Hy : bpow radix2 (-25) <= y <= 23 / 4). { unfold y. change (bpow radix2 (-25)) with (/ 33554432). split; apply Rmult_le_reg_r with K; try lra; unfold Rdiv; rewrite ?Rmult_assoc, Rinv_l by lra; lra. }
  pose proof (bpow_gt_0 radix2 (-25)) as P25. destruct f1_val as (F1 & V1). destruct f2_val as (F2 & V2).
  destruct (mul_spec f_2 (f_k lgK) 27) as (V2k & F2k & _); auto; [lia|rewrite V2, Vk, Rabs_pos_eq by lra; change (bpow radix2 27) with 134217728; lra|].
  assert (W2k : B2R (fmul f_2 (f_k lgK)) = 2 * K). { rewrite V2k, V2, Vk. apply rnd_id. unfold K. apply (fmt_lit 2); lia. }
  assert (EX : IZR c / (2 * K) = y / 2) by (unfold y; field; lra).
  destruct (div_spec (f_of_Z c) (fmul f_2 (f_k lgK)) 2) as (Vx & Fx & Bx); auto; [lia|lra|rewrite Vc, W2k, EX, Rabs_pos_eq by lra; change (bpow radix2 2) with 4; lra|].
  rewrite Vc, W2k, rnd_id in Vx. 2:{ replace (IZR c / (2 * K)) with (IZR c * bpow radix2 (- Z.of_nat lgK - 1)); [apply fmt_lit; lia|]. unfold Zminus. rewrite bpow_plus, bpow_opp. fold K. change (bpow radix2 (- (1))) with (/ 2). field. lra. }
  rewrite EX in Vx. set (x := fdiv (f_of_Z c) (fmul f_2 (f_k lgK))) in *.
  destruct (div_spec (f_of_Z c) (f_k lgK) 3) as (Vq & Fq & Bq); auto; [lia|lra|rewrite Vc, Vk; fold y; rewrite Rabs_pos_eq by lra; change (bpow radix2 3) with 8; lra|].
  rewrite Vc, Vk, rnd_id in Vq by (replace (IZR c / K) with (IZR c * bpow radix2 (- Z.of_nat lgK)) by (rewrite bpow_opp; reflexivity); apply fmt_lit; lia). fold y in Vq.
  destruct (row_value row x HR (conj Fx Bx)) as (v & Ev & Fv & Dv); [rewrite Vx; lra|]. exists v. split; auto. cbv zeta. set (ra := fdiv (f_of_Z c) (f_k lgK)) in *. rewrite Vx in Dv.
  destruct (cell y ltac:(lra)) as (i & b & Eb & Hyi). destruct (poly_band row i b (32 * y - IZR (2 * Z.of_nat i + 1)) HR Eb) as (Pp & Bd). { rewrite plus_IZR, mult_IZR, <- INR_IZR_INZ. rewrite S_INR in Hyi. apply Rabs_le. lra. }
  replace ((IZR (2 * Z.of_nat i + 1) + (32 * y - IZR (2 * Z.of_nat i + 1))) / 64) with (y / 2) in * by field. replace (2 * (y / 2)) with y in Bd by field. set (p := lpoly row (y / 2)) in *.
  assert (BS : 524288 <= IZR (fst b) /\ IZR (snd b) <= 8388608). { pose proof bands_sane as S. rewrite forallb_forall in S. specialize (S b (nth_error_In _ _ Eb)). apply andb_prop in S. destruct S as [S1 S2]. apply Z.leb_le in S1, S2. split; apply IZR_le; auto. }
  destruct W_val as (WV & _). set (T := cubic_term y) in *. set (t := y * y * y / W). assert (Y3 : bpow radix2 (-75) <= y * y * y <= 200). { replace (bpow radix2 (-75)) with (bpow radix2 (-25) * bpow radix2 (-25) * bpow radix2 (-25)) by (rewrite <- !bpow_plus; reflexivity). split; [apply cube_mono; lra|]. apply Rle_trans with (23 / 4 * (23 / 4) * (23 / 4)); [apply cube_mono; lra|lra]. }
  pose proof (bpow_gt_0 radix2 (-75)) as P75. assert (IW : / 67 <= / W <= / 66) by (split; apply Rinv_le_contravar; lra).
  assert (Ht : bpow radix2 (-82) <= t <= 7 / 2). { unfold t, Rdiv. split; [|apply Rle_trans with (200 * / 66); [apply Rmult_le_compat; lra|lra]]. apply Rle_trans with (bpow radix2 (-75) * / 67); [|apply Rmult_le_compat; lra]. change (-82)%Z with (-75 + -7)%Z. rewrite bpow_plus. apply Rmult_le_compat_l; [lra|]. change (bpow radix2 (-7)) with (/ 128). lra. }
  assert (HT : T = 1 + t) by reflexivity. pose proof (bpow_gt_0 radix2 (-82)) as P82.
  assert (Hp : / 9 <= p <= 8). { split; [apply Rmult_le_reg_r with T; [lra|]; lra|]. apply Rle_trans with (p * T); [rewrite <- (Rmult_1_r p) at 1; apply Rmult_le_compat_l; lra|lra]. }
  apply Rabs_le_inv in Dv. assert (Hv : / 10 <= B2R v <= 9) by lra.
  (* ratio^2 *)
  destruct u53_small as (U0 & U1). assert (Y2 : bpow radix2 (-50) <= y * y <= 64). { split; [change (-50)%Z with (-25 + -25)%Z; rewrite bpow_plus; apply Rmult_le_compat; lra|]. replace 64 with (8 * 8) by ring. apply Rmult_le_compat; lra. } pose proof (bpow_gt_0 radix2 (-50)) as P50.
  destruct (mul_spec ra ra 6) as (VA & FAa & BA); auto; [lia|rewrite Vq, Rabs_pos_eq by lra; change (bpow radix2 6) with 64; lra|]. rewrite Vq in VA.
  assert (RA : rc u53 (B2R (fmul ra ra)) (y * y)) by (rewrite VA; apply rc_rnd, norm_ge; eapply Rle_trans; [|apply Y2]; apply bpow_le; lia). assert (VA' : bpow radix2 (-50) <= B2R (fmul ra ra) <= 64). { rewrite VA. split; [apply rnd_ge; [apply fmt_bpow; lia|lra]|apply rnd_le_gen; [apply (fmt_IZR 64); lia|lra]]. }
  (* ratio^3 *)
  assert (Y3' : bpow radix2 (-75) <= B2R (fmul ra ra) * y <= 512). { split; [change (-75)%Z with (-50 + -25)%Z; rewrite bpow_plus; apply Rmult_le_compat; lra|]. replace 512 with (64 * 8) by ring. apply Rmult_le_compat; lra. }
  destruct (mul_spec (fmul ra ra) ra 9) as (VB & FB & BB); auto; [lia|rewrite Vq, Rabs_pos_eq by lra; change (bpow radix2 9) with 512; lra|]. rewrite Vq in VB.
  assert (RB : rc (6 * u53) (B2R (fmul (fmul ra ra) ra)) (y * y * y)). { rewrite VB. apply rc_le with (2 * (u53 + 2 * (u53 + 0))); [lra|]. eapply rc_trans; [lra| |apply rc_rnd, norm_ge; eapply Rle_trans; [|apply Y3']; apply bpow_le; lia|apply rc_mul; [lra|lra|exact RA|apply rc_refl; lra]]. lra. }
  assert (VB' : bpow radix2 (-75) <= B2R (fmul (fmul ra ra) ra) <= 512). { rewrite VB. split; [apply rnd_ge; [apply fmt_bpow; lia|lra]|apply rnd_le_gen; [apply (fmt_IZR 512); lia|lra]]. }
  destruct (lit_spec 2349427896429339 (-45)) as (FW & VW); [lia|lia|]. change (IZR 2349427896429339 * bpow radix2 (-45)) with W in VW. set (cu := fmul (fmul ra ra) ra) in *.
  assert (TD : bpow radix2 (-82) <= B2R cu / W <= 8). { unfold Rdiv. split; [|apply Rle_trans with (512 * / 66); [apply Rmult_le_compat; lra|lra]]. apply Rle_trans with (bpow radix2 (-75) * / 67); [|apply Rmult_le_compat; lra]. change (-82)%Z with (-75 + -7)%Z. rewrite bpow_plus. apply Rmult_le_compat_l; [lra|]. change (bpow radix2 (-7)) with (/ 128). lra. }
  destruct (div_spec cu (f_lit 2349427896429339 (-45)) 3) as (VD & FD & BD); auto; [lia|lra|rewrite VW, Rabs_pos_eq by lra; change (bpow radix2 3) with 8; lra|]. rewrite VW in VD.
  set (td := fdiv cu (f_lit 2349427896429339 (-45))) in *.
  assert (RD : rc (26 * u53) (B2R td) t). { rewrite VD. apply rc_le with (2 * (u53 + 2 * (6 * u53 + 0))); [lra|]. eapply rc_trans; [lra| |apply rc_rnd, norm_ge; eapply Rle_trans; [|apply TD]; apply bpow_le; lia|apply rc_mul; [lra|lra|exact RB|apply rc_refl; lra]]. lra. }
  assert (VD' : 0 <= B2R td <= 8). { rewrite VD. split; [apply rnd_ge; [apply (fmt_IZR 0); lia|lra]|apply rnd_le_gen; [apply (fmt_IZR 8); lia|lra]]. }
  destruct (add_spec f_1 td 4) as (VE & FE & BE); auto; [lia|rewrite V1, Rabs_pos_eq by lra; change (bpow radix2 4) with 16; lra|]. rewrite V1 in VE. set (te := fadd f_1 td) in *.
  assert (RE : rc (54 * u53) (B2R te) T). { rewrite VE. apply rc_le with (2 * (u53 + 26 * u53)); [lra|]. eapply rc_trans; [lra| |apply rc_rnd, norm_ge; apply Rle_trans with 1; [change 1 with (bpow radix2 0); apply bpow_le; lia|lra]|]. lra.
    destruct RD as (z & Hz & Ez). exists (t * z / T). rewrite Ez, HT. split; [|field; lra]. rewrite HT in *. unfold Rdiv. rewrite !Rabs_mult, (Rabs_pos_eq t) by lra. rewrite (Rabs_pos_eq (/ (1 + t))) by (apply Rlt_le, Rinv_0_lt_compat; lra).
    apply Rmult_le_reg_r with (1 + t); [lra|]. rewrite Rmult_assoc, Rinv_l, Rmult_1_r by lra. rewrite Rmult_comm. apply Rmult_le_compat; try lra. apply Rabs_pos. }
  assert (VE' : 1 <= B2R te <= 9). { rewrite VE. split; [apply rnd_ge; [apply (fmt_IZR 1); lia|lra]|apply rnd_le_gen; [apply (fmt_IZR 9); lia|lra]]. }
  (* c * v *)
  assert (CV : / 10 <= IZR c * B2R v <= bpow radix2 33). { split; [apply Rle_trans with (1 * (/ 10)); [lra|apply Rmult_le_compat; lra]|]. change (bpow radix2 33) with 8589934592. apply Rle_trans with (402653184 * 9); [apply Rmult_le_compat; lra|lra]. }
  destruct (mul_spec (f_of_Z c) v 33) as (VF & FF & BF); auto; [lia|apply Fv|rewrite Vc, Rabs_pos_eq by lra; lra|]. rewrite Vc in VF. set (cv := fmul (f_of_Z c) v) in *.
  assert (Sm : forall e z, / 16 <= z -> (e <= -4)%Z -> bpow radix2 e <= z). { intros e z Hz He. eapply Rle_trans; [|exact Hz]. change (/ 16) with (bpow radix2 (-4)). apply bpow_le; lia. }
  assert (RF : rc u53 (B2R cv) (IZR c * B2R v)) by (rewrite VF; apply rc_rnd, norm_ge, Sm; [lra|lia]). assert (VF' : / 16 <= B2R cv <= bpow radix2 33). { rewrite VF. split; [apply rnd_ge; [change (/ 16) with (bpow radix2 (-4)); apply fmt_bpow; lia|lra]|apply rnd_le_gen; [apply fmt_bpow; lia|lra]]. }
  assert (RV : / 16 <= B2R cv * B2R te <= bpow radix2 37). { split; [rewrite <- (Rmult_1_r (/ 16)); apply Rmult_le_compat; lra|]. change 37%Z with (33 + 4)%Z. rewrite bpow_plus. change (bpow radix2 4) with 16. apply Rmult_le_compat; lra. }
  destruct (mul_spec cv te 37) as (VG & FG & BG); auto; [lia|rewrite Rabs_pos_eq by lra; lra|]. set (re := fmul cv te) in *.
  assert (RG : rc (222 * u53) (B2R re) (IZR c * B2R v * T)). { rewrite VG. apply rc_le with (2 * (u53 + 2 * (u53 + 54 * u53))); [lra|]. eapply rc_trans; [lra| |apply rc_rnd, norm_ge, Sm; [lra|lia]|apply rc_mul; [lra|lra|exact RF|exact RE]]. lra. }
  destruct RG as (tau & Htau & Ere). set (q := B2R v * T * (1 + tau)).
  assert (Eq : B2R re = IZR c * q) by (rewrite Ere; unfold q; ring). apply Rabs_le_inv in Htau.
  assert (Hq : Rabs (q - p * T) <= / 1024). { unfold q. replace (B2R v * T * (1 + tau) - p * T) with ((B2R v - p) * T + B2R v * T * tau) by ring. eapply Rle_trans; [apply Rabs_triang|]. rewrite !Rabs_mult, (Rabs_pos_eq T), (Rabs_pos_eq (B2R v)) by lra.
    assert (Rabs (B2R v - p) * T <= / 524288 * 5) by (apply Rmult_le_compat; try lra; [apply Rabs_pos|apply Rabs_le; lra]). assert (B2R v * T * Rabs tau <= 45 * / 1048576) by (apply Rmult_le_compat; [apply Rmult_le_pos; lra|apply Rabs_pos|replace 45 with (9 * 5) by ring; apply Rmult_le_compat; lra|apply Rabs_le; lra]). lra. }
  apply Rabs_le_inv in Hq.
  assert (WL : IZR (fst (widened b)) / 1048576 <= Rmax 1 q). { unfold widened. cbn [fst]. destruct (Z.max_spec 1048576 (fst b - 1024)) as [(_ & ->)|(_ & ->)]; [eapply Rle_trans; [|apply Rmax_r]; rewrite minus_IZR; lra|eapply Rle_trans; [|apply Rmax_l]; lra]. }
  assert (WU : Rmax 1 q <= IZR (snd (widened b)) / 1048576). { unfold widened. cbn [snd]. assert (1048576 <= IZR (Z.max 1048576 (snd b + 1024))) by (apply IZR_le; lia). assert (IZR (snd b + 1024) <= IZR (Z.max 1048576 (snd b + 1024))) by (apply IZR_le; lia). rewrite plus_IZR in *. apply Rmax_lub; lra. }
  assert (EE : B2R (if fle (f_of_Z c) re then re else f_of_Z c) = IZR c * Rmax 1 q).
  { destruct (fle (f_of_Z c) re) eqn:C.
    - apply (fle_spec _ _ Fc FG) in C. rewrite Vc, Eq in C. rewrite Rmax_right; auto. apply Rmult_le_reg_l with (IZR c); lra.
    - rewrite Vc. rewrite Rmax_left; [ring|]. apply Rmult_le_reg_l with (IZR c); [lra|]. rewrite <- Eq. destruct (Rle_or_lt (IZR c) (B2R re)) as [Q|Q]; [|lra]. rewrite <- Vc in Q. apply (fle_spec _ _ Fc FG) in Q. congruence. }
  match goal with |- Rabs (cov 64 ?z - _) <= _ => replace z with (y * Rmax 1 q) end; [|transitivity (IZR c * Rmax 1 q / K); [unfold y; field; lra|unfold Rdiv; f_equal; symmetry; exact EE]].
  apply (invert i b); auto. lra.
Qed.
