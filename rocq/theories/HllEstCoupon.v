(** * The interpolation of coupon counts in binary64: error, range, monotonicity *)
From Coq Require Import ZArith Reals Bool Psatz.
From Flocq Require Import Core Relative BinarySingleNaN.
From Verif Require Import Base Bytes Arr FloatModel FloatProofs ReqRankProofs HllModel HllEstTables HllEstModel HllEstProofs.
From Coq Require Import Rdefinitions.
Local Open Scope R_scope.

Lemma of_Z_exact z : (Z.abs z <= 2 ^ 53)%Z -> is_finite (f_of_Z z) = true /\ B2R (f_of_Z z) = IZR z.
Proof. intros H. destruct (of_Z_spec z 53) as (A & B & _); [lia|auto|]. split; auto. rewrite A. apply rnd_id. apply fmt_IZR. auto. Qed.
Lemma sub_exact a b : (Z.abs a <= 2 ^ 52)%Z -> (Z.abs b <= 2 ^ 52)%Z -> is_finite (fsub (f_of_Z a) (f_of_Z b)) = true /\ B2R (fsub (f_of_Z a) (f_of_Z b)) = IZR (a - b).
Proof.
  intros Ha Hb. destruct (of_Z_exact a) as (Fa & Va); [lia|]. destruct (of_Z_exact b) as (Fb & Vb); [lia|].
  assert (E : B2R (f_of_Z a) - B2R (f_of_Z b) = IZR (a - b)) by (rewrite Va, Vb, minus_IZR; auto).
  destruct (sub_spec (f_of_Z a) (f_of_Z b) 53) as (P & Q & _); auto; try lia.
  { rewrite E, <- abs_IZR. change (bpow radix2 53) with (IZR (2 ^ 53)). apply IZR_le. lia. }
  split; auto. rewrite P, E. apply rnd_id. apply fmt_IZR. lia.
Qed.
Lemma IZR_abs_bpow z e : (0 <= e)%Z -> (Z.abs z <= 2 ^ e)%Z -> Rabs (IZR z) <= bpow radix2 e.
Proof. intros He H. rewrite <- abs_IZR, <- IZR_Zpower by auto. apply IZR_le. exact H. Qed.

Lemma rnd_abs_err x e : (-900 <= e)%Z -> Rabs x <= bpow radix2 e -> Rabs (rnd x - x) <= bpow radix2 (e - 53).
Proof.
  intros He Hx. destruct (Rle_or_lt (bpow radix2 (-1022)) (Rabs x)) as [B|S].
  - destruct (rnd_rel x B) as (eps & A & ->). replace (x * (1 + eps) - x) with (x * eps) by ring. rewrite Rabs_mult. unfold Zminus. rewrite bpow_plus.
    apply Rmult_le_compat; auto using Rabs_pos.
  - pose proof (rnd_abs_le x (-1022) ltac:(lia) ltac:(lra)) as R1. eapply Rle_trans; [apply (Rabs_triang (rnd x) (- x))|]. rewrite Rabs_Ropp.
    apply Rle_trans with (bpow radix2 (1 + -1022)); [rewrite bpow_plus; change (bpow radix2 1) with 2; lra|apply bpow_le; lia].
Qed.

Definition rangeZ (x : Z) : Prop := (0 <= x <= 2 ^ 20)%Z.
Definition prodZ (x p q r : Z) : Z := ((x - p) * (x - q) * (x - r))%Z.
Lemma prod_abs a b A B : (Z.abs a <= A)%Z -> (Z.abs b <= B)%Z -> (Z.abs (a * b) <= A * B)%Z.
Proof. intros Ha Hb. rewrite Z.abs_mul. apply Z.mul_le_mono_nonneg; lia. Qed.
Lemma prodZ_abs x p q r : rangeZ x -> rangeZ p -> rangeZ q -> rangeZ r -> (Z.abs (prodZ x p q r) <= 2 ^ 60)%Z.
Proof.
  unfold rangeZ, prodZ. intros. change (2 ^ 60)%Z with (2 ^ 20 * 2 ^ 20 * 2 ^ 20)%Z. apply prod_abs; [apply prod_abs|]; lia.
Qed.
Lemma lag_spec x p q r : rangeZ x -> rangeZ p -> rangeZ q -> rangeZ r ->
  is_finite (lag (f_of_Z x) (f_of_Z p) (f_of_Z q) (f_of_Z r)) = true /\
  near (B2R (lag (f_of_Z x) (f_of_Z p) (f_of_Z q) (f_of_Z r))) (IZR (prodZ x p q r)) 2.
Proof.
  intros Hx Hp Hq Hr. pose proof (prodZ_abs x p q r Hx Hp Hq Hr) as HP. unfold rangeZ, prodZ in *. unfold lag.
  destruct (sub_exact x p) as (F1 & V1); [lia..|]. destruct (sub_exact x q) as (F2 & V2); [lia..|]. destruct (sub_exact x r) as (F3 & V3); [lia..|].
  assert (B2 : (Z.abs ((x - p) * (x - q)) <= 2 ^ 40)%Z). { change (2 ^ 40)%Z with (2 ^ 20 * 2 ^ 20)%Z. apply prod_abs; lia. }
  assert (E2 : B2R (fsub (f_of_Z x) (f_of_Z p)) * B2R (fsub (f_of_Z x) (f_of_Z q)) = IZR ((x - p) * (x - q))) by (rewrite V1, V2, mult_IZR; auto).
  destruct (mul_spec _ _ 40 ltac:(lia) F1 F2) as (P & Fp & _). { rewrite E2. apply IZR_abs_bpow; [lia|exact B2]. }
  rewrite E2, rnd_id in P by (apply fmt_IZR; lia).
  assert (E3 : B2R (fmul (fsub (f_of_Z x) (f_of_Z p)) (fsub (f_of_Z x) (f_of_Z q))) * B2R (fsub (f_of_Z x) (f_of_Z r)) = IZR ((x - p) * (x - q) * (x - r))) by (rewrite P, V3, <- mult_IZR; auto).
  destruct (mul_spec _ _ 60 ltac:(lia) Fp F3) as (P3 & Fp3 & _). { rewrite E3. apply IZR_abs_bpow; [lia|exact HP]. }
  split; auto. rewrite P3, E3. replace 2 with (0 + 2) by ring. apply near_rnd; [lra|apply near_refl|].
  destruct (Z.eq_dec ((x - p) * (x - q) * (x - r)) 0) as [->|N]; [left; reflexivity|right].
  rewrite <- abs_IZR. apply Rle_trans with 1; [change 1 with (bpow radix2 0); apply bpow_le; lia|]. apply IZR_le. lia.
Qed.

Definition yok (y : f64) : Prop := is_finite y = true /\ (B2R y = 0 \/ 1 <= B2R y <= bpow radix2 20).
Lemma term_err y x p q r a : yok y -> rangeZ x -> rangeZ p -> rangeZ q -> rangeZ r -> rangeZ a ->
  prodZ a p q r <> 0%Z -> (Z.abs (prodZ x p q r) <= 32 * Z.abs (prodZ a p q r))%Z ->
  let t := term y (f_of_Z x) (f_of_Z p) (f_of_Z q) (f_of_Z r) (f_of_Z a) in
  let v := B2R y * (IZR (prodZ x p q r) / IZR (prodZ a p q r)) in
  is_finite t = true /\ Rabs v <= bpow radix2 25 /\ Rabs (B2R t) <= bpow radix2 26 /\ Rabs (B2R t - v) <= bpow radix2 (-24).
Proof.
  intros (Fy & Hy) Hx Hp Hq Hr Ha Hd Hl t v. unfold term in t.
  destruct (lag_spec x p q r) as (Fl & Nl); auto. destruct (lag_spec a p q r) as (Fd & Nd); auto.
  pose proof (prodZ_abs x p q r Hx Hp Hq Hr) as B1. pose proof (prodZ_abs a p q r Ha Hp Hq Hr) as B2.
  set (l := lag (f_of_Z x) (f_of_Z p) (f_of_Z q) (f_of_Z r)) in *. set (d := lag (f_of_Z a) (f_of_Z p) (f_of_Z q) (f_of_Z r)) in *.
  set (L := prodZ x p q r) in *. set (D := prodZ a p q r) in *.
  assert (PD : 1 <= Rabs (IZR D)) by (rewrite <- abs_IZR; apply IZR_le; lia).
  assert (BL : Rabs (IZR L) <= bpow radix2 60) by (apply IZR_abs_bpow; [lia|auto]).
  assert (LD : Rabs (IZR L) <= 32 * Rabs (IZR D)) by (rewrite <- !abs_IZR; rewrite <- mult_IZR; apply IZR_le; auto).
  assert (By : 0 <= B2R y <= bpow radix2 20) by (pose proof (bpow_gt_0 radix2 20); destruct Hy as [->|Hy]; lra).
  assert (Bl : Rabs (B2R l) <= bpow radix2 61).
  { unfold near in Nl. rewrite u_val in Nl. pose proof (Rabs_triang (B2R l - IZR L) (IZR L)) as T. replace (B2R l - IZR L + IZR L) with (B2R l) in T by ring.
    change (bpow radix2 61) with (bpow radix2 (1 + 60)). rewrite bpow_plus. change (bpow radix2 1) with 2. pose proof (Rabs_pos (IZR L)). lra. }
  destruct (mul_spec y l 81 ltac:(lia) Fy Fl) as (Pm & Fm & _).
  { rewrite Rabs_mult, (Rabs_pos_eq (B2R y)) by lra. change (bpow radix2 81) with (bpow radix2 (20 + 61)). rewrite bpow_plus. apply Rmult_le_compat; auto using Rabs_pos; lra. }
  assert (Nm : near (B2R (fmul y l)) (B2R y * IZR L) 4).
  { rewrite Pm. replace 4 with (2 + 2) by ring. apply near_rnd; [lra|apply near_mul; auto|]. destruct Hy as [->|Hy]; [left; ring|].
    destruct (Z.eq_dec L 0) as [->|N]; [left; ring|right]. rewrite Rabs_mult, (Rabs_pos_eq (B2R y)) by lra.
    apply Rle_trans with 1; [change 1 with (bpow radix2 0); apply bpow_le; lia|]. rewrite <- (Rmult_1_r 1) at 1. apply Rmult_le_compat; try lra. rewrite <- abs_IZR. apply IZR_le. lia. }
  assert (ND : IZR D <> 0) by (intros E; rewrite E, Rabs_R0 in PD; lra).
  destruct (near_div _ _ _ _ 4 2 ltac:(lra) ltac:(lra) ND Nm Nd) as (Nd0 & Hdb & Nq). replace (2 * (4 + 2)) with 12 in Nq by ring.
  assert (Ev : B2R y * IZR L / IZR D = v) by (unfold v; field; auto). rewrite Ev in Nq.
  assert (Bv : Rabs v <= bpow radix2 25).
  { unfold v. rewrite Rabs_mult, (Rabs_pos_eq (B2R y)) by lra. change (bpow radix2 25) with (bpow radix2 (20 + 5)). rewrite bpow_plus. apply Rmult_le_compat; auto using Rabs_pos; try lra.
    unfold Rdiv. rewrite Rabs_mult, Rabs_inv. change (bpow radix2 5) with 32. apply Rmult_le_reg_r with (Rabs (IZR D)); [lra|]. rewrite Rmult_assoc, Rinv_l by lra. lra. }
  pose proof (Rabs_pos v) as Pv.
  assert (Bq : Rabs (B2R (fmul y l) / B2R d) <= bpow radix2 26).
  { unfold near in Nq. rewrite u_val in Nq. pose proof (Rabs_triang (B2R (fmul y l) / B2R d - v) v) as T. replace (B2R (fmul y l) / B2R d - v + v) with (B2R (fmul y l) / B2R d) in T by ring.
    change (bpow radix2 26) with (bpow radix2 (1 + 25)). rewrite bpow_plus. change (bpow radix2 1) with 2. lra. }
  destruct (div_spec (fmul y l) d 26 ltac:(lia) Fm Nd0 Bq) as (Pt & Ft & Bt). fold t in Pt, Ft, Bt. split; auto. split; auto. split; auto.
  assert (Nt : near (B2R t) v 14).
  { rewrite Pt. replace 14 with (12 + 2) by ring. apply near_rnd; [lra|auto|]. destruct Hy as [Hy|Hy]; [left; unfold v; rewrite Hy; ring|].
    destruct (Z.eq_dec L 0) as [E|N]; [left; unfold v; rewrite E; unfold Rdiv; ring|right]. unfold v, Rdiv. rewrite !Rabs_mult, Rabs_inv, (Rabs_pos_eq (B2R y)) by lra.
    assert (HL : 1 <= Rabs (IZR L)) by (rewrite <- abs_IZR; apply IZR_le; lia).
    assert (HD : Rabs (IZR D) <= bpow radix2 60) by (apply IZR_abs_bpow; [lia|auto]).
    assert (HI : bpow radix2 (-60) <= / Rabs (IZR D)). { change (-60)%Z with (Z.opp 60). rewrite bpow_opp. apply Rinv_le; lra. }
    pose proof (bpow_gt_0 radix2 (-60)). apply Rle_trans with (bpow radix2 (-60)); [apply bpow_le; lia|].
    apply Rle_trans with (1 * (1 * / Rabs (IZR D))); [lra|]. apply Rmult_le_compat; try lra. apply Rmult_le_compat_r; lra. }
  unfold near in Nt. rewrite u_val in Nt. eapply Rle_trans; [exact Nt|]. change (bpow radix2 25) with 33554432 in Bv. change (bpow radix2 (-24)) with (/ 16777216). lra.
Qed.

Lemma cubic_err y0 y1 y2 y3 x a b c d : yok y0 -> yok y1 -> yok y2 -> yok y3 -> rangeZ x -> rangeZ a -> rangeZ b -> rangeZ c -> rangeZ d ->
  prodZ a b c d <> 0%Z -> prodZ b a c d <> 0%Z -> prodZ c a b d <> 0%Z -> prodZ d a b c <> 0%Z ->
  (Z.abs (prodZ x b c d) <= 32 * Z.abs (prodZ a b c d))%Z -> (Z.abs (prodZ x a c d) <= 32 * Z.abs (prodZ b a c d))%Z ->
  (Z.abs (prodZ x a b d) <= 32 * Z.abs (prodZ c a b d))%Z -> (Z.abs (prodZ x a b c) <= 32 * Z.abs (prodZ d a b c))%Z ->
  let r := cubic (f_of_Z a) y0 (f_of_Z b) y1 (f_of_Z c) y2 (f_of_Z d) y3 (f_of_Z x) in
  is_finite r = true /\
  Rabs (B2R r - (B2R y0 * (IZR (prodZ x b c d) / IZR (prodZ a b c d)) + B2R y1 * (IZR (prodZ x a c d) / IZR (prodZ b a c d)) +
                 B2R y2 * (IZR (prodZ x a b d) / IZR (prodZ c a b d)) + B2R y3 * (IZR (prodZ x a b c) / IZR (prodZ d a b c)))) <= / 1024.
Proof.
  intros Y0 Y1 Y2 Y3 Hx Ha Hb Hc Hd N0 N1 N2 N3 L0 L1 L2 L3 r. unfold cubic in r.
  destruct (term_err y0 x b c d a Y0 Hx Hb Hc Hd Ha N0 L0) as (F0 & _ & B0 & E0).
  destruct (term_err y1 x a c d b Y1 Hx Ha Hc Hd Hb N1 L1) as (F1 & _ & B1 & E1).
  destruct (term_err y2 x a b d c Y2 Hx Ha Hb Hd Hc N2 L2) as (F2 & _ & B2 & E2).
  destruct (term_err y3 x a b c d Y3 Hx Ha Hb Hc Hd N3 L3) as (F3 & _ & B3 & E3).
  set (t0 := term y0 _ _ _ _ _) in *. set (t1 := term y1 _ _ _ _ _) in *. set (t2 := term y2 _ _ _ _ _) in *. set (t3 := term y3 _ _ _ _ _) in *.
  change (bpow radix2 26) with 67108864 in *. change (bpow radix2 (-24)) with (/ 16777216) in *.
  destruct (add_spec t0 t1 28 ltac:(lia) F0 F1) as (V01 & F01 & _).
  { change (bpow radix2 28) with 268435456. eapply Rle_trans; [apply Rabs_triang|]. lra. }
  assert (A01 : Rabs (B2R (fadd t0 t1) - (B2R t0 + B2R t1)) <= / 33554432).
  { rewrite V01. change (/ 33554432) with (bpow radix2 (28 - 53)). apply rnd_abs_err; [lia|]. change (bpow radix2 28) with 268435456. eapply Rle_trans; [apply Rabs_triang|]. lra. }
  apply Rabs_le_inv in A01, B0, B1, B2, B3.
  destruct (add_spec (fadd t0 t1) t2 28 ltac:(lia) F01 F2) as (V02 & F02 & _).
  { change (bpow radix2 28) with 268435456. apply Rabs_le. lra. }
  assert (A02 : Rabs (B2R (fadd (fadd t0 t1) t2) - (B2R (fadd t0 t1) + B2R t2)) <= / 33554432).
  { rewrite V02. change (/ 33554432) with (bpow radix2 (28 - 53)). apply rnd_abs_err; [lia|]. change (bpow radix2 28) with 268435456. apply Rabs_le. lra. }
  apply Rabs_le_inv in A02.
  assert (S4 : -268435457 <= B2R (fadd (fadd t0 t1) t2) + B2R t3 <= 268435457) by lra.
  destruct (add_spec (fadd (fadd t0 t1) t2) t3 29 ltac:(lia) F02 F3) as (V03 & F03 & _).
  { change (bpow radix2 29) with 536870912. apply Rabs_le. lra. }
  assert (A03 : Rabs (B2R (fadd (fadd (fadd t0 t1) t2) t3) - (B2R (fadd (fadd t0 t1) t2) + B2R t3)) <= / 16777216).
  { rewrite V03. change (/ 16777216) with (bpow radix2 (29 - 53)). apply rnd_abs_err; [lia|]. change (bpow radix2 29) with 536870912. apply Rabs_le. lra. }
  apply Rabs_le_inv in A03, E0, E1, E2, E3. split; auto. fold r in A03. apply Rabs_le. lra.
Qed.

(** ** Finding the interval *)
Lemma lt_fin (x y : f64) : is_finite x = true -> is_finite y = true -> flt x y = Rlt_bool (B2R x) (B2R y).
Proof. intros Fx Fy. apply eq_true_iff_eq. rewrite (flt_spec x y Fx Fy). destruct (Rlt_bool_spec (B2R x) (B2R y)); split; intros; auto; try lra; discriminate. Qed.
Lemma le_fin (x y : f64) : is_finite x = true -> is_finite y = true -> fle x y = Rle_bool (B2R x) (B2R y).
Proof. intros Fx Fy. apply eq_true_iff_eq. rewrite (fle_spec x y Fx Fy). destruct (Rle_bool_spec (B2R x) (B2R y)); split; intros; auto; try lra; discriminate. Qed.
Definition increasing (xs : list f64) : Prop :=
  forall i j a b, (i < j)%nat -> nth_error xs i = Some a -> nth_error xs j = Some b -> B2R a < B2R b.
Lemma straddle_rec_ok xs x : increasing xs -> Forall (fun a => is_finite a = true) xs -> is_finite x = true ->
  forall fu l r a b, (r - l <= fu)%nat -> (l < r)%nat -> nth_error xs l = Some a -> nth_error xs r = Some b -> B2R a <= B2R x < B2R b ->
  exists o a' b', straddle_rec fu xs l r x = Some o /\ (l <= o < r)%nat /\ nth_error xs o = Some a' /\ nth_error xs (o + 1) = Some b' /\ B2R a' <= B2R x < B2R b'.
Proof.
  intros Hi Hf Fx. rewrite Forall_forall in Hf. induction fu as [|fu IH]; intros l r a b Hfu Hlr Ea Eb Hx; [lia|]. cbn [straddle_rec].
  destruct (Nat.leb_spec r l); [lia|]. rewrite Ea, Eb. cbn [bindo].
  pose proof (Hf _ (nth_error_In _ _ Ea)) as Fa. pose proof (Hf _ (nth_error_In _ _ Eb)) as Fb.
  rewrite (lt_fin x a Fx Fa), (le_fin b x Fb Fx). rewrite (Rlt_bool_false (B2R x) (B2R a)) by apply Hx. rewrite (Rle_bool_false (B2R b) (B2R x)) by apply Hx. cbn [orb].
  destruct (Nat.eqb_spec (l + 1) r) as [<-|Ne]; [exists l, a, b; split; [auto|]; split; [lia|]; auto|].
  set (m := (l + (r - l) / 2)%nat).
  assert (Hm : (l < m < r)%nat). { unfold m. pose proof (Nat.div_le_lower_bound (r - l) 2 1 ltac:(lia) ltac:(lia)). pose proof (Nat.div_lt (r - l) 2 ltac:(lia) ltac:(lia)). lia. }
  destruct (nth_error xs m) as [c|] eqn:Ec.
  2:{ apply nth_error_None in Ec. assert (nth_error xs r <> None) by congruence. apply nth_error_Some in H0. lia. }
  cbn [bindo]. pose proof (Hf _ (nth_error_In _ _ Ec)) as Fc. rewrite (le_fin c x Fc Fx).
  destruct (Rle_bool_spec (B2R c) (B2R x)).
  - destruct (IH m r c b ltac:(lia) ltac:(lia) Ec Eb ltac:(lra)) as (o & a' & b' & P & Q & W). exists o, a', b'. split; auto. split; [lia|auto].
  - destruct (IH l m a c ltac:(lia) ltac:(lia) Ea Ec ltac:(lra)) as (o & a' & b' & P & Q & W). exists o, a', b'. split; auto. split; [lia|auto].
Qed.
Lemma find_straddle_ok xs x a b : increasing xs -> Forall (fun a => is_finite a = true) xs -> is_finite x = true -> (2 <= length xs)%nat ->
  nth_error xs 0 = Some a -> nth_error xs (length xs - 1) = Some b -> B2R a <= B2R x < B2R b ->
  exists o a' b', find_straddle xs x = Some o /\ (o < length xs - 1)%nat /\ nth_error xs o = Some a' /\ nth_error xs (o + 1) = Some b' /\ B2R a' <= B2R x < B2R b'.
Proof.
  intros Hi Hf Fx Hl Ea Eb Hx. unfold find_straddle. destruct (Nat.ltb_spec (length xs) 2); [lia|]. rewrite Ea, Eb. cbn [bindo].
  pose proof Hf as Hf'. rewrite Forall_forall in Hf'.
  pose proof (Hf' _ (nth_error_In _ _ Ea)) as Fa. pose proof (Hf' _ (nth_error_In _ _ Eb)) as Fb.
  rewrite (lt_fin x a Fx Fa), (lt_fin b x Fb Fx), (Rlt_bool_false (B2R x) (B2R a)), (Rlt_bool_false (B2R b) (B2R x)) by (apply Rlt_le, Hx || apply Hx). cbn [orb].
  destruct (straddle_rec_ok xs x Hi Hf Fx (length xs) 0 (length xs - 1) a b ltac:(lia) ltac:(lia) Ea Eb Hx) as (o & a' & b' & P & Q & W).
  exists o, a', b'. split; auto. split; [lia|auto].
Qed.
(** ** The coupon table *)
Fixpoint incb (l : list Z) : bool :=
  match l with [] => true | a :: l' => match l' with [] => true | b :: _ => (a <? b)%Z && incb l' end end.
Lemma incb_head : forall l a, incb (a :: l) = true -> Forall (fun b => a < b)%Z l.
Proof.
  induction l as [|b l IH]; intros a H; constructor.
  - cbn [incb] in H. apply andb_true_iff in H. destruct H as (H & _). apply Z.ltb_lt. exact H.
  - cbn [incb] in H. apply andb_true_iff in H. destruct H as (H & H'). apply Z.ltb_lt in H. specialize (IH b H'). rewrite Forall_forall in *. intros z Hz. specialize (IH z Hz). lia.
Qed.
Lemma incb_spec : forall l i j a b, incb l = true -> (i < j)%nat -> nth_error l i = Some a -> nth_error l j = Some b -> (a < b)%Z.
Proof.
  induction l as [|c l IH]; intros i j a b H Hij Ea Eb; [destruct i; discriminate|].
  destruct j as [|j]; [lia|]. cbn [nth_error] in Eb. destruct i as [|i].
  - cbn [nth_error] in Ea. injection Ea as <-. pose proof (incb_head l c H) as F. rewrite Forall_forall in F. apply F. eapply nth_error_In; eauto.
  - cbn [nth_error] in Ea. apply (IH i j a b); auto; [|lia]. destruct l; [auto|]. cbn [incb] in H |- *. apply andb_true_iff in H. apply H.
Qed.
Definition small_ints (l : list Z) : bool := forallb (fun z => (Z.abs z <=? 2 ^ 40)%Z) l.
Lemma coupon_x_inc : incb coupon_x = true. Proof. vm_compute. reflexivity. Qed.
Lemma coupon_x_small : small_ints coupon_x = true. Proof. vm_compute. reflexivity. Qed.
Lemma coupon_xs_nth i a : nth_error coupon_xs i = Some a -> exists z, nth_error coupon_x i = Some z /\ a = f_of_Z z /\ is_finite a = true /\ B2R a = IZR z.
Proof.
  unfold coupon_xs. rewrite nth_error_map. destruct (nth_error coupon_x i) as [z|] eqn:E; [|discriminate]. cbn [option_map]. intros H. injection H as <-.
  exists z. split; auto. split; auto. pose proof coupon_x_small as S. unfold small_ints in S. rewrite forallb_forall in S. pose proof (S z (nth_error_In _ _ E)) as B. apply Z.leb_le in B.
  apply of_Z_exact. change (2 ^ 53)%Z with 9007199254740992%Z. change (2 ^ 40)%Z with 1099511627776%Z in B. lia.
Qed.
Lemma coupon_xs_inc : increasing coupon_xs.
Proof.
  intros i j a b Hij Ha Hb. destruct (coupon_xs_nth _ _ Ha) as (z & Ez & _ & _ & ->). destruct (coupon_xs_nth _ _ Hb) as (w & Ew & _ & _ & ->).
  apply IZR_lt. eapply incb_spec; eauto. apply coupon_x_inc.
Qed.
Lemma coupon_xs_fin : Forall (fun a => is_finite a = true) coupon_xs.
Proof. apply Forall_forall. intros a H. apply In_nth_error in H. destruct H as (i & H). destruct (coupon_xs_nth _ _ H) as (_ & _ & _ & F & _). auto. Qed.
Lemma coupon_xs_len : length coupon_xs = 40%nat. Proof. reflexivity. Qed.
Lemma coupon_ys_len : length coupon_ys = 40%nat. Proof. reflexivity. Qed.

(** The interval of n, and the four points used *)
Lemma coupon_find n : (0 <= n <= 196609)%Z ->
  exists o z w, find_straddle coupon_xs (f_of_Z n) = Some o /\ nth_error coupon_x o = Some z /\ nth_error coupon_x (o + 1) = Some w /\ (z <= n < w)%Z /\ (o <= 5)%nat.
Proof.
  intros Hn. destruct (of_Z_exact n) as (Fn & Vn); [lia|].
  destruct (of_Z_exact 0) as (F0 & V0); [lia|]. destruct (of_Z_exact 10200000) as (F9 & V9); [lia|].
  destruct (find_straddle_ok coupon_xs (f_of_Z n) (f_of_Z 0) (f_of_Z 10200000) coupon_xs_inc coupon_xs_fin Fn) as (o & a & b & P & Q & Ea & Eb & Hx).
  { rewrite coupon_xs_len. lia. }
  { reflexivity. }
  { rewrite coupon_xs_len. reflexivity. }
  { rewrite V0, V9, Vn. split; [apply IZR_le|apply IZR_lt]; lia. }
  destruct (coupon_xs_nth _ _ Ea) as (z & Ez & _ & _ & Vz). destruct (coupon_xs_nth _ _ Eb) as (w & Ew & _ & _ & Vw).
  exists o, z, w. rewrite Vz, Vw, Vn in Hx. destruct Hx as (H1 & H2). apply le_IZR in H1. apply lt_IZR in H2. repeat split; auto.
  destruct (Nat.le_gt_cases o 5); auto. exfalso.
  pose proof (incb_spec coupon_x 5 o 160000 z coupon_x_inc ltac:(lia) eq_refl Ez).
  destruct (Nat.eq_dec o 6) as [->|]; [injection Ez as <-; lia|].
  pose proof (incb_spec coupon_x 6 o 300000 z coupon_x_inc ltac:(lia) eq_refl Ez). lia.
Qed.

(** The number of distinct items expected behind n distinct coupons, to second order: a pair of items shares its coupon with probability 1 / (3 * 2^26) *)
Definition ideal (n : Z) : R := IZR n + IZR (n * n) / (6 * IZR (2 ^ 26)).
Lemma y_ok0 : yok (f_lit 0 (0)) /\ B2R (f_lit 0 (0)) = 0 * / 1.
Proof.
  destruct (lit_spec 0 (0)) as (F & V); [lia|lia|]. change (bpow radix2 (0)) with (1) in V. split; [split; auto|]; rewrite V; first [lra | left; lra | right; change (bpow radix2 20) with 1048576; lra].
Qed.
Lemma y_ok1 : yok (f_lit 1 (0)) /\ B2R (f_lit 1 (0)) = 1 * / 1.
Proof.
  destruct (lit_spec 1 (0)) as (F & V); [lia|lia|]. change (bpow radix2 (0)) with (1) in V. split; [split; auto|]; rewrite V; first [lra | left; lra | right; change (bpow radix2 20) with 1048576; lra].
Qed.
Lemma y_ok2 : yok (f_lit 1407374949963097 (-46)) /\ B2R (f_lit 1407374949963097 (-46)) = 1407374949963097 * / 70368744177664.
Proof.
  destruct (lit_spec 1407374949963097 (-46)) as (F & V); [lia|lia|]. change (bpow radix2 (-46)) with (/ 70368744177664) in V. split; [split; auto|]; rewrite V; first [lra | left; lra | right; change (bpow radix2 20) with 1048576; lra].
Qed.
Lemma y_ok3 : yok (f_lit 879610173850591 (-41)) /\ B2R (f_lit 879610173850591 (-41)) = 879610173850591 * / 2199023255552.
Proof.
  destruct (lit_spec 879610173850591 (-41)) as (F & V); [lia|lia|]. change (bpow radix2 (-41)) with (/ 2199023255552) in V. split; [split; auto|]; rewrite V; first [lra | left; lra | right; change (bpow radix2 20) with 1048576; lra].
Qed.
Lemma y_ok4 : yok (f_lit 1099533470874687 (-37)) /\ B2R (f_lit 1099533470874687 (-37)) = 1099533470874687 * / 137438953472.
Proof.
  destruct (lit_spec 1099533470874687 (-37)) as (F & V); [lia|lia|]. change (bpow radix2 (-37)) with (/ 137438953472) in V. split; [split; auto|]; rewrite V; first [lra | left; lra | right; change (bpow radix2 20) with 1048576; lra].
Qed.
Lemma y_ok5 : yok (f_lit 2749871825537355 (-34)) /\ B2R (f_lit 2749871825537355 (-34)) = 2749871825537355 * / 17179869184.
Proof.
  destruct (lit_spec 2749871825537355 (-34)) as (F & V); [lia|lia|]. change (bpow radix2 (-34)) with (/ 17179869184) in V. split; [split; auto|]; rewrite V; first [lra | left; lra | right; change (bpow radix2 20) with 1048576; lra].
Qed.
Lemma y_ok6 : yok (f_lit 2578902007470155 (-33)) /\ B2R (f_lit 2578902007470155 (-33)) = 2578902007470155 * / 8589934592.
Proof.
  destruct (lit_spec 2578902007470155 (-33)) as (F & V); [lia|lia|]. change (bpow radix2 (-33)) with (/ 8589934592) in V. split; [split; auto|]; rewrite V; first [lra | left; lra | right; change (bpow radix2 20) with 1048576; lra].
Qed.
Lemma y_ok7 : yok (f_lit 2580826921901739 (-32)) /\ B2R (f_lit 2580826921901739 (-32)) = 2580826921901739 * / 4294967296.
Proof.
  destruct (lit_spec 2580826921901739 (-32)) as (F & V); [lia|lia|]. change (bpow radix2 (-32)) with (/ 4294967296) in V. split; [split; auto|]; rewrite V; first [lra | left; lra | right; change (bpow radix2 20) with 1048576; lra].
Qed.
Lemma lag_le n p q r A B C M : (Z.abs (n - p) <= A)%Z -> (Z.abs (n - q) <= B)%Z -> (Z.abs (n - r) <= C)%Z -> (A * B * C <= M)%Z -> (Z.abs (prodZ n p q r) <= M)%Z.
Proof. intros. unfold prodZ. eapply Z.le_trans; [apply prod_abs; [apply prod_abs|]; eassumption|auto]. Qed.
Lemma seg0 n : (0 <= n <= 20)%Z ->
  let r := cubic (f_of_Z 0) (f_lit 0 (0)) (f_of_Z 1) (f_lit 1 (0)) (f_of_Z 20) (f_lit 1407374949963097 (-46)) (f_of_Z 400) (f_lit 879610173850591 (-41)) (f_of_Z n) in
  is_finite r = true /\ Rabs (B2R r - ideal n) <= / 16.
Proof.
  intros Hn r. destruct y_ok0 as (Y0 & V0). destruct y_ok1 as (Y1 & V1). destruct y_ok2 as (Y2 & V2). destruct y_ok3 as (Y3 & V3).
  destruct (cubic_err (f_lit 0 (0)) (f_lit 1 (0)) (f_lit 1407374949963097 (-46)) (f_lit 879610173850591 (-41)) n 0 1 20 400 Y0 Y1 Y2 Y3) as (F & E).
  1-5: unfold rangeZ; lia. 1-4: unfold prodZ; lia.
  { apply (lag_le _ _ _ _ 19 20 400); unfold prodZ; lia. } { apply (lag_le _ _ _ _ 20 20 400); unfold prodZ; lia. } { apply (lag_le _ _ _ _ 20 19 400); unfold prodZ; lia. } { apply (lag_le _ _ _ _ 20 19 20); unfold prodZ; lia. }
  fold r in F, E. split; auto. rewrite V0, V1, V2, V3 in E. unfold ideal. unfold prodZ in E. rewrite !mult_IZR, !minus_IZR in E. rewrite mult_IZR.
  assert (T : 0 <= IZR n <= 20) by (split; apply IZR_le; lia). set (t := IZR n) in *.
  assert (T2 : 0 <= t * t <= 20 * t) by (split; nra). assert (T3 : 0 <= t * t * t <= 20 * (t * t)) by (split; nra).
  change (IZR (2 ^ 26)) with 67108864. apply Rabs_le_inv in E. apply Rabs_le. unfold Rdiv in *. lra.
Qed.
Lemma seg1 n : (20 <= n <= 400)%Z ->
  let r := cubic (f_of_Z 1) (f_lit 1 (0)) (f_of_Z 20) (f_lit 1407374949963097 (-46)) (f_of_Z 400) (f_lit 879610173850591 (-41)) (f_of_Z 8000) (f_lit 1099533470874687 (-37)) (f_of_Z n) in
  is_finite r = true /\ Rabs (B2R r - ideal n) <= / 16.
Proof.
  intros Hn r. destruct y_ok1 as (Y0 & V0). destruct y_ok2 as (Y1 & V1). destruct y_ok3 as (Y2 & V2). destruct y_ok4 as (Y3 & V3).
  destruct (cubic_err (f_lit 1 (0)) (f_lit 1407374949963097 (-46)) (f_lit 879610173850591 (-41)) (f_lit 1099533470874687 (-37)) n 1 20 400 8000 Y0 Y1 Y2 Y3) as (F & E).
  1-5: unfold rangeZ; lia. 1-4: unfold prodZ; lia.
  { apply (lag_le _ _ _ _ 380 380 7980); unfold prodZ; lia. } { apply (lag_le _ _ _ _ 399 380 7980); unfold prodZ; lia. } { apply (lag_le _ _ _ _ 399 380 7980); unfold prodZ; lia. } { apply (lag_le _ _ _ _ 399 380 380); unfold prodZ; lia. }
  fold r in F, E. split; auto. rewrite V0, V1, V2, V3 in E. unfold ideal. unfold prodZ in E. rewrite !mult_IZR, !minus_IZR in E. rewrite mult_IZR.
  assert (T : 20 <= IZR n <= 400) by (split; apply IZR_le; lia). set (t := IZR n) in *.
  assert (T2 : 0 <= t * t <= 400 * t) by (split; nra). assert (T3 : 0 <= t * t * t <= 400 * (t * t)) by (split; nra).
  change (IZR (2 ^ 26)) with 67108864. apply Rabs_le_inv in E. apply Rabs_le. unfold Rdiv in *. lra.
Qed.
Lemma seg2 n : (400 <= n <= 8000)%Z ->
  let r := cubic (f_of_Z 20) (f_lit 1407374949963097 (-46)) (f_of_Z 400) (f_lit 879610173850591 (-41)) (f_of_Z 8000) (f_lit 1099533470874687 (-37)) (f_of_Z 160000) (f_lit 2749871825537355 (-34)) (f_of_Z n) in
  is_finite r = true /\ Rabs (B2R r - ideal n) <= / 16.
Proof.
  intros Hn r. destruct y_ok2 as (Y0 & V0). destruct y_ok3 as (Y1 & V1). destruct y_ok4 as (Y2 & V2). destruct y_ok5 as (Y3 & V3).
  destruct (cubic_err (f_lit 1407374949963097 (-46)) (f_lit 879610173850591 (-41)) (f_lit 1099533470874687 (-37)) (f_lit 2749871825537355 (-34)) n 20 400 8000 160000 Y0 Y1 Y2 Y3) as (F & E).
  1-5: unfold rangeZ; lia. 1-4: unfold prodZ; lia.
  { apply (lag_le _ _ _ _ 7600 7600 159600); unfold prodZ; lia. } { apply (lag_le _ _ _ _ 7980 7600 159600); unfold prodZ; lia. } { apply (lag_le _ _ _ _ 7980 7600 159600); unfold prodZ; lia. } { apply (lag_le _ _ _ _ 7980 7600 7600); unfold prodZ; lia. }
  fold r in F, E. split; auto. rewrite V0, V1, V2, V3 in E. unfold ideal. unfold prodZ in E. rewrite !mult_IZR, !minus_IZR in E. rewrite mult_IZR.
  assert (T : 400 <= IZR n <= 8000) by (split; apply IZR_le; lia). set (t := IZR n) in *.
  assert (T2 : 0 <= t * t <= 8000 * t) by (split; nra). assert (T3 : 0 <= t * t * t <= 8000 * (t * t)) by (split; nra).
  change (IZR (2 ^ 26)) with 67108864. apply Rabs_le_inv in E. apply Rabs_le. unfold Rdiv in *. lra.
Qed.
Lemma seg3 n : (8000 <= n <= 160000)%Z ->
  let r := cubic (f_of_Z 400) (f_lit 879610173850591 (-41)) (f_of_Z 8000) (f_lit 1099533470874687 (-37)) (f_of_Z 160000) (f_lit 2749871825537355 (-34)) (f_of_Z 300000) (f_lit 2578902007470155 (-33)) (f_of_Z n) in
  is_finite r = true /\ Rabs (B2R r - ideal n) <= / 16.
Proof.
  intros Hn r. destruct y_ok3 as (Y0 & V0). destruct y_ok4 as (Y1 & V1). destruct y_ok5 as (Y2 & V2). destruct y_ok6 as (Y3 & V3).
  destruct (cubic_err (f_lit 879610173850591 (-41)) (f_lit 1099533470874687 (-37)) (f_lit 2749871825537355 (-34)) (f_lit 2578902007470155 (-33)) n 400 8000 160000 300000 Y0 Y1 Y2 Y3) as (F & E).
  1-5: unfold rangeZ; lia. 1-4: unfold prodZ; lia.
  { apply (lag_le _ _ _ _ 152000 152000 292000); unfold prodZ; lia. } { apply (lag_le _ _ _ _ 159600 152000 292000); unfold prodZ; lia. } { apply (lag_le _ _ _ _ 159600 152000 292000); unfold prodZ; lia. } { apply (lag_le _ _ _ _ 159600 152000 152000); unfold prodZ; lia. }
  fold r in F, E. split; auto. rewrite V0, V1, V2, V3 in E. unfold ideal. unfold prodZ in E. rewrite !mult_IZR, !minus_IZR in E. rewrite mult_IZR.
  assert (T : 8000 <= IZR n <= 160000) by (split; apply IZR_le; lia). set (t := IZR n) in *.
  assert (T2 : 0 <= t * t <= 160000 * t) by (split; nra). assert (T3 : 0 <= t * t * t <= 160000 * (t * t)) by (split; nra).
  change (IZR (2 ^ 26)) with 67108864. apply Rabs_le_inv in E. apply Rabs_le. unfold Rdiv in *. lra.
Qed.
Lemma seg4 n : (160000 <= n <= 196610)%Z ->
  let r := cubic (f_of_Z 8000) (f_lit 1099533470874687 (-37)) (f_of_Z 160000) (f_lit 2749871825537355 (-34)) (f_of_Z 300000) (f_lit 2578902007470155 (-33)) (f_of_Z 600000) (f_lit 2580826921901739 (-32)) (f_of_Z n) in
  is_finite r = true /\ Rabs (B2R r - ideal n) <= / 16.
Proof.
  intros Hn r. destruct y_ok4 as (Y0 & V0). destruct y_ok5 as (Y1 & V1). destruct y_ok6 as (Y2 & V2). destruct y_ok7 as (Y3 & V3).
  destruct (cubic_err (f_lit 1099533470874687 (-37)) (f_lit 2749871825537355 (-34)) (f_lit 2578902007470155 (-33)) (f_lit 2580826921901739 (-32)) n 8000 160000 300000 600000 Y0 Y1 Y2 Y3) as (F & E).
  1-5: unfold rangeZ; lia. 1-4: unfold prodZ; lia.
  { apply (lag_le _ _ _ _ 36610 140000 440000); unfold prodZ; lia. } { apply (lag_le _ _ _ _ 188610 140000 440000); unfold prodZ; lia. } { apply (lag_le _ _ _ _ 188610 36610 440000); unfold prodZ; lia. } { apply (lag_le _ _ _ _ 188610 36610 140000); unfold prodZ; lia. }
  fold r in F, E. split; auto. rewrite V0, V1, V2, V3 in E. unfold ideal. unfold prodZ in E. rewrite !mult_IZR, !minus_IZR in E. rewrite mult_IZR.
  assert (T : 160000 <= IZR n <= 196610) by (split; apply IZR_le; lia). set (t := IZR n) in *.
  assert (T2 : 0 <= t * t <= 196610 * t) by (split; nra). assert (T3 : 0 <= t * t * t <= 196610 * (t * t)) by (split; nra).
  change (IZR (2 ^ 26)) with 67108864. apply Rabs_le_inv in E. apply Rabs_le. unfold Rdiv in *. lra.
Qed.

(** ** The coupon estimate *)
Theorem coupon_raw_ok n : (n <= Z.to_nat 196609)%nat ->
  exists r, coupon_raw n = Some r /\ is_finite r = true /\ Rabs (B2R r - ideal (Z.of_nat n)) <= / 16.
Proof.
  intros Hn. assert (Hz : (0 <= Z.of_nat n <= 196609)%Z) by lia. unfold coupon_raw. set (z := Z.of_nat n) in *. clearbody z. clear Hn n.
  destruct (of_Z_exact z) as (Fn & Vn); [lia|]. destruct (of_Z_exact 10200000) as (F9 & V9); [lia|].
  unfold using_tables. rewrite coupon_xs_len, coupon_ys_len. change ((40 <? 4)%nat || negb (40 =? 40)%nat) with false. cbv iota.
  change (nth_error coupon_xs (40 - 1)) with (Some (f_of_Z 10200000)). cbn [bindo].
  assert (Nq : feq (f_of_Z z) (f_of_Z 10200000) = false).
  { destruct (feq (f_of_Z z) (f_of_Z 10200000)) eqn:E; auto. apply feq_spec in E; auto. rewrite Vn, V9 in E. apply eq_IZR in E. lia. }
  rewrite Nq. destruct (coupon_find z Hz) as (o & a & b & P & Ea & Eb & Hab & Ho). rewrite P. cbn [bindo].
  destruct (Nat.ltb_spec (40 - 2) o); [lia|].
  destruct o as [|[|[|[|[|[|o]]]]]]; [..|lia]; injection Ea as <-; injection Eb as <-; eexists; (split; [reflexivity|]).
  - apply seg0; lia.
  - apply seg0; lia.
  - apply seg1; lia.
  - apply seg2; lia.
  - apply seg3; lia.
  - apply seg4; lia.
Qed.

Lemma fmax_fin x y : is_finite x = true -> is_finite y = true -> is_finite (fmax x y) = true /\ B2R (fmax x y) = Rmax (B2R x) (B2R y).
Proof.
  intros Fx Fy. destruct (fmax_spec x y (finite_not_nan x Fx) (finite_not_nan y Fy)) as (_ & Lx & Ly & [E|E]); rewrite E in *; split; auto; apply fle_spec in Lx; apply fle_spec in Ly; auto.
  - rewrite Rmax_left; auto.
  - rewrite Rmax_right; auto.
Qed.
Lemma bmax_fin x y : is_finite x = true -> is_finite y = true -> is_finite (bmax x y) = true /\ B2R (bmax x y) = Rmax (B2R x) (B2R y).
Proof. intros Fx Fy. unfold bmax. rewrite (finite_not_nan x Fx), (finite_not_nan y Fy). cbn [orb]. apply fmax_fin; auto. Qed.

Lemma ideal_ge n : (0 <= n)%Z -> IZR n <= ideal n.
Proof. intros H. unfold ideal. assert (0 <= IZR (n * n)) by (apply IZR_le; nia). change (IZR (2 ^ 26)) with 67108864. lra. Qed.
Lemma ideal_step n : (0 <= n)%Z -> ideal n + 1 <= ideal (n + 1).
Proof.
  intros H. unfold ideal. rewrite plus_IZR. assert (IZR (n * n) <= IZR ((n + 1) * (n + 1))) by (apply IZR_le; nia). change (IZR (2 ^ 26)) with 67108864. lra.
Qed.
(** What the table gives: finite, at least n, near the ideal *)
Theorem coupon_est_ok n : (n <= Z.to_nat 196609)%nat ->
  coupon_estimate n = Some (coupon_est n) /\ is_finite (coupon_est n) = true /\ IZR (Z.of_nat n) <= B2R (coupon_est n) /\
  Rabs (B2R (coupon_est n) - ideal (Z.of_nat n)) <= / 16.
Proof.
  intros Hn. destruct (coupon_raw_ok n Hn) as (r & E & F & A). destruct (of_Z_exact (Z.of_nat n)) as (Fn & Vn); [lia|].
  unfold coupon_estimate. rewrite E. cbn [bindo]. unfold coupon_est. rewrite E. cbn [or_zero].
  destruct (bmax_fin r (f_of_Z (Z.of_nat n)) F Fn) as (Fb & Vb). split; auto. split; auto. rewrite Vb, Vn. split; [apply Rmax_r|].
  pose proof (ideal_ge (Z.of_nat n) ltac:(lia)). apply Rabs_le_inv in A. unfold Rmax. destruct (Rle_dec (B2R r) (IZR (Z.of_nat n))); apply Rabs_le; lra.
Qed.
Theorem coupon_est_mono a b : (a <= b)%nat -> (b <= Z.to_nat 196609)%nat -> B2R (coupon_est a) <= B2R (coupon_est b).
Proof.
  intros Hab Hb. destruct (Nat.eq_dec a b) as [->|N]; [lra|].
  destruct (coupon_est_ok a) as (_ & _ & _ & A); [lia|]. destruct (coupon_est_ok b) as (_ & _ & _ & B); [lia|].
  assert (S : ideal (Z.of_nat a) + 1 <= ideal (Z.of_nat b)).
  { eapply Rle_trans; [apply ideal_step; lia|]. unfold ideal. apply Rplus_le_compat; [apply IZR_le; lia|]. change (IZR (2 ^ 26)) with 67108864.
    assert (IZR ((Z.of_nat a + 1) * (Z.of_nat a + 1)) <= IZR (Z.of_nat b * Z.of_nat b)) by (apply IZR_le; nia). lra. }
  apply Rabs_le_inv in A, B. lra.
Qed.

(** ** Bounds of coupon modes *)
Lemma sd_cases sd : sd_ok sd = true <-> sd = 1%Z \/ sd = 2%Z \/ sd = 3%Z.
Proof. unfold sd_ok. rewrite negb_true_iff, orb_false_iff, Z.ltb_ge, Z.ltb_ge. lia. Qed.
Definition cfac (up : bool) (sd : Z) : f64 := if up then fsub f_1 (fmul (f_of_Z sd) coupon_rse) else fadd f_1 (fmul (f_of_Z sd) coupon_rse).
Lemma cfac_vals : forallb (fun sd => is_finite (cfac true sd) && is_finite (cfac false sd) && fle f_1 (cfac false sd) && fle (cfac true sd) f_1 && fle (f_lit 1 (-1)) (cfac true sd) && fle (cfac false sd) f_2) [1; 2; 3]%Z = true /\
  fle (cfac true 2) (cfac true 1) = true /\ fle (cfac true 3) (cfac true 2) = true /\ fle (cfac false 1) (cfac false 2) = true /\ fle (cfac false 2) (cfac false 3) = true.
Proof. vm_compute. auto. Qed.
Lemma f2_val : is_finite f_2 = true /\ B2R f_2 = 2.
Proof. apply (of_Z_exact 2). lia. Qed.
Lemma half_val : is_finite (f_lit 1 (-1)) = true /\ B2R (f_lit 1 (-1)) = / 2.
Proof. destruct (lit_spec 1 (-1)) as (A & B); [lia|lia|]. split; auto. rewrite B. change (bpow radix2 (-1)) with (/ 2). lra. Qed.
Lemma cfac_spec sd : sd_ok sd = true -> is_finite (cfac true sd) = true /\ is_finite (cfac false sd) = true /\ / 2 <= B2R (cfac true sd) <= 1 /\ 1 <= B2R (cfac false sd) <= 2.
Proof.
  intros H. destruct cfac_vals as (A & _). rewrite forallb_forall in A.
  assert (In sd [1; 2; 3]%Z). { apply sd_cases in H. cbn. intuition. } specialize (A sd H0). rewrite !andb_true_iff in A. destruct A as (((((A1 & A2) & A3) & A4) & A5) & A6).
  destruct f1_val as (F1 & V1). destruct f2_val as (F2 & V2). destruct half_val as (F3 & V3).
  pose proof (proj1 (fle_spec _ _ F1 A2) A3). pose proof (proj1 (fle_spec _ _ A1 F1) A4). pose proof (proj1 (fle_spec _ _ F3 A1) A5). pose proof (proj1 (fle_spec _ _ A2 F2) A6). rewrite V1 in *. rewrite V2 in *. rewrite V3 in *. auto.
Qed.
Lemma cfac_mono s1 s2 : sd_ok s1 = true -> sd_ok s2 = true -> (s1 <= s2)%Z -> B2R (cfac true s2) <= B2R (cfac true s1) /\ B2R (cfac false s1) <= B2R (cfac false s2).
Proof.
  intros H1 H2 Hs. destruct cfac_vals as (_ & B1 & B2 & B3 & B4).
  destruct (cfac_spec 1 eq_refl) as (U1 & L1 & _). destruct (cfac_spec 2 eq_refl) as (U2 & L2 & _). destruct (cfac_spec 3 eq_refl) as (U3 & L3 & _).
  pose proof (proj1 (fle_spec _ _ U2 U1) B1). pose proof (proj1 (fle_spec _ _ U3 U2) B2). pose proof (proj1 (fle_spec _ _ L1 L2) B3). pose proof (proj1 (fle_spec _ _ L2 L3) B4). apply sd_cases in H1, H2. destruct H1 as [->|[->| ->]], H2 as [->|[->| ->]]; try lia; split; lra.
Qed.
(** Division by a factor near one *)
Lemma div_fac x d e : is_finite x = true -> is_finite d = true -> 0 <= B2R x <= bpow radix2 e -> (0 <= e <= 1000)%Z -> / 8 <= B2R d ->
  is_finite (fdiv x d) = true /\ B2R (fdiv x d) = rnd (B2R x / B2R d) /\ 0 <= B2R (fdiv x d) <= bpow radix2 (e + 3).
Proof.
  intros Fx Fd Hx He Hd. assert (Q : 0 <= B2R x / B2R d <= bpow radix2 (e + 3)).
  { assert (I : / B2R d <= 8) by (replace 8 with (/ / 8) by lra; apply Rinv_le; lra). assert (0 < / B2R d) by (apply Rinv_0_lt_compat; lra).
    rewrite bpow_plus. change (bpow radix2 3) with 8. unfold Rdiv. split; [apply Rmult_le_pos; lra|]. apply Rmult_le_compat; lra. }
  destruct (div_spec x d (e + 3) ltac:(lia) Fx ltac:(lra)) as (V & F & B); [rewrite Rabs_pos_eq; lra|]. split; auto. split; auto. rewrite V. split; [apply rnd_nonneg; lra|].
  rewrite <- V. apply Rabs_le_inv in B. lra.
Qed.
Lemma div_fac_mono a b : 0 <= a -> 0 < b -> forall c, b <= c -> rnd (a / c) <= rnd (a / b).
Proof. intros Ha Hb c Hc. apply rnd_le. unfold Rdiv. apply Rmult_le_compat_l; auto. apply Rinv_le; auto. Qed.
Lemma fmt_B2R (x : f64) : fmt (B2R x).
Proof. apply generic_format_B2R. Qed.

Lemma zero_eqb_val (r : f64) : feq r f_zero = true -> is_finite r = true -> B2R r = 0.
Proof. intros H F. apply feq_spec in H; auto. Qed.
Lemma coupon_raw_nonneg n r : (n <= Z.to_nat 196609)%nat -> coupon_raw n = Some r -> 0 <= B2R r <= bpow radix2 18.
Proof.
  intros Hn E. destruct (coupon_raw_ok n Hn) as (r' & E' & F & A). rewrite E in E'. injection E' as <-. apply Rabs_le_inv in A.
  assert (U : ideal (Z.of_nat n) <= 200000). { unfold ideal. assert (IZR (Z.of_nat n) <= 196609) by (apply IZR_le; lia). assert (IZR (Z.of_nat n * Z.of_nat n) <= 38655098881) by (apply IZR_le; nia). change (IZR (2 ^ 26)) with 67108864. lra. }
  change (bpow radix2 18) with 262144. split; [|lra]. destruct (Nat.eq_dec n 0) as [->|N].
  - assert (Z0 : (do x <- coupon_raw 0; Some (feq x f_zero)) = Some true) by (vm_compute; reflexivity). rewrite E in Z0. cbn [bindo] in Z0. injection Z0 as Z0. rewrite (zero_eqb_val r Z0 F). lra.
  - pose proof (ideal_ge (Z.of_nat n) ltac:(lia)). assert (1 <= IZR (Z.of_nat n)) by (apply IZR_le; lia). lra.
Qed.

Theorem coupon_bounds_ok n sd : (n <= Z.to_nat 196609)%nat -> sd_ok sd = true ->
  exists lo up, coupon_lower n sd = Some lo /\ coupon_upper n sd = Some up /\ is_finite lo = true /\ is_finite up = true /\
    IZR (Z.of_nat n) <= B2R lo /\ B2R lo <= B2R (coupon_est n) /\ B2R (coupon_est n) <= B2R up.
Proof.
  intros Hn Hs. destruct (coupon_raw_ok n Hn) as (r & E & F & _). destruct (of_Z_exact (Z.of_nat n)) as (Fn & Vn); [lia|].
  pose proof (coupon_raw_nonneg n r Hn E) as P.
  unfold coupon_lower, coupon_upper, coupon_est. rewrite Hs, E. cbn [bindo or_zero]. destruct (cfac_spec sd Hs) as (FU & FL & BU & BL).
  change (fsub f_1 (fmul (f_of_Z sd) coupon_rse)) with (cfac true sd). change (fadd f_1 (fmul (f_of_Z sd) coupon_rse)) with (cfac false sd).
  destruct (bmax_fin r (f_of_Z (Z.of_nat n)) F Fn) as (Fb & Vb).
  destruct (div_fac r (cfac true sd) 18 F FU P ltac:(lia) ltac:(lra)) as (F1 & V1 & _). destruct (div_fac r (cfac false sd) 18 F FL P ltac:(lia) ltac:(lra)) as (F2 & V2 & _).
  destruct (bmax_fin _ _ F1 Fn) as (F1' & V1'). destruct (bmax_fin _ _ F2 Fn) as (F2' & V2').
  exists (bmax (fdiv r (cfac false sd)) (f_of_Z (Z.of_nat n))), (bmax (fdiv r (cfac true sd)) (f_of_Z (Z.of_nat n))).
  split; auto. split; auto. split; auto. split; auto. rewrite V1', V2', Vb, V1, V2, Vn.
  assert (R1 : B2R r = rnd (B2R r / 1)) by (unfold Rdiv; rewrite Rinv_1, Rmult_1_r, rnd_id; auto using fmt_B2R).
  pose proof (div_fac_mono (B2R r) 1 ltac:(lra) ltac:(lra) (B2R (cfac false sd)) ltac:(lra)) as M1.
  pose proof (div_fac_mono (B2R r) (B2R (cfac true sd)) ltac:(lra) ltac:(lra) 1 ltac:(lra)) as M2. rewrite <- R1 in M1, M2.
  split; [apply Rmax_r|]. split; apply Rle_max_compat_r; auto.
Qed.
Theorem coupon_bounds_sd n s1 s2 lo1 up1 lo2 up2 : (n <= Z.to_nat 196609)%nat -> (s1 <= s2)%Z ->
  coupon_lower n s1 = Some lo1 -> coupon_upper n s1 = Some up1 -> coupon_lower n s2 = Some lo2 -> coupon_upper n s2 = Some up2 ->
  B2R lo2 <= B2R lo1 /\ B2R up1 <= B2R up2.
Proof.
  intros Hn Hss. destruct (coupon_raw_ok n Hn) as (r & E & F & _). destruct (of_Z_exact (Z.of_nat n)) as (Fn & Vn); [lia|].
  pose proof (coupon_raw_nonneg n r Hn E) as P. unfold coupon_lower, coupon_upper. rewrite E. cbn [bindo].
  destruct (sd_ok s1) eqn:H1; [|discriminate]. destruct (sd_ok s2) eqn:H2; [|discriminate].
  change (fsub f_1 (fmul (f_of_Z s1) coupon_rse)) with (cfac true s1). change (fadd f_1 (fmul (f_of_Z s1) coupon_rse)) with (cfac false s1).
  change (fsub f_1 (fmul (f_of_Z s2) coupon_rse)) with (cfac true s2). change (fadd f_1 (fmul (f_of_Z s2) coupon_rse)) with (cfac false s2).
  destruct (cfac_spec s1 H1) as (FU1 & FL1 & BU1 & BL1). destruct (cfac_spec s2 H2) as (FU2 & FL2 & BU2 & BL2). destruct (cfac_mono s1 s2 H1 H2 Hss) as (MU & ML).
  intros A1 A2 A3 A4.
  destruct (div_fac r (cfac true s1) 18 F FU1 P ltac:(lia) ltac:(lra)) as (F1 & V1 & _). destruct (div_fac r (cfac false s1) 18 F FL1 P ltac:(lia) ltac:(lra)) as (F2 & V2 & _).
  destruct (div_fac r (cfac true s2) 18 F FU2 P ltac:(lia) ltac:(lra)) as (F3 & V3 & _). destruct (div_fac r (cfac false s2) 18 F FL2 P ltac:(lia) ltac:(lra)) as (F4 & V4 & _).
  destruct (bmax_fin _ _ F1 Fn) as (_ & W1). destruct (bmax_fin _ _ F2 Fn) as (_ & W2). destruct (bmax_fin _ _ F3 Fn) as (_ & W3). destruct (bmax_fin _ _ F4 Fn) as (_ & W4).
  apply (f_equal (fun o => match o with Some x => B2R x | None => 0 end)) in A1, A2, A3, A4. cbv iota beta in A1, A2, A3, A4.
  rewrite <- A1, <- A2, <- A3, <- A4, W1, W2, W3, W4, V1, V2, V3, V4.
  split; apply Rle_max_compat_r; apply div_fac_mono; lra.
Qed.
Lemma coupon_bad_sd n sd : sd_ok sd = false -> coupon_lower n sd = None /\ coupon_upper n sd = None.
Proof. intros H. unfold coupon_lower, coupon_upper. rewrite H. auto. Qed.
