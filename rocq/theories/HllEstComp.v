(** * Relative errors, confidence bounds and the composite estimate in binary64 *)
From Coq Require Import ZArith Reals Bool Psatz.
From Flocq Require Import Core Relative BinarySingleNaN.
From Verif Require Import Base Bytes Arr FloatModel FloatProofs ReqRankProofs HllModel HllPack HllArrProofs HllMode HllUnion HllEstTables HllEstModel HllEstProofs HllEstCoupon HllEstHip.
From Coq Require Import Rdefinitions.
Local Open Scope R_scope.

(** ** Finite with a bound *)
Definition fb (x : f64) (e : Z) : Prop := is_finite x = true /\ Rabs (B2R x) <= bpow radix2 e.
Definition away (x : f64) (e : Z) : Prop := bpow radix2 e <= Rabs (B2R x).
Lemma fb_le x a b : fb x a -> (a <= b)%Z -> fb x b.
Proof. intros (F & B) H. split; auto. eapply Rle_trans; [exact B|apply bpow_le; auto]. Qed.
Lemma fb_add x y e : (-1000 <= e <= 1000)%Z -> fb x e -> fb y e -> fb (fadd x y) (e + 1).
Proof.
  intros He (Fx & Bx) (Fy & By). destruct (add_spec x y (e + 1)) as (V & F & B); auto; [lia| |split; auto].
  eapply Rle_trans; [apply Rabs_triang|]. rewrite bpow_plus. change (bpow radix2 1) with 2. lra.
Qed.
Lemma fb_sub x y e : (-1000 <= e <= 1000)%Z -> fb x e -> fb y e -> fb (fsub x y) (e + 1).
Proof.
  intros He (Fx & Bx) (Fy & By). destruct (sub_spec x y (e + 1)) as (V & F & B); auto; [lia| |split; auto].
  eapply Rle_trans; [apply (Rabs_triang (B2R x) (- B2R y))|]. rewrite Rabs_Ropp, bpow_plus. change (bpow radix2 1) with 2. lra.
Qed.
Lemma fb_mul x y a b : (-500 <= a <= 500)%Z -> (-500 <= b <= 500)%Z -> fb x a -> fb y b -> fb (fmul x y) (a + b).
Proof.
  intros Ha Hb (Fx & Bx) (Fy & By). destruct (mul_spec x y (a + b)) as (V & F & B); auto; [lia| |split; auto].
  rewrite Rabs_mult, bpow_plus. apply Rmult_le_compat; auto using Rabs_pos.
Qed.
Lemma away_nz x e : away x e -> B2R x <> 0.
Proof. unfold away. intros H E. rewrite E, Rabs_R0 in H. pose proof (bpow_gt_0 radix2 e). lra. Qed.
Lemma fb_div x y a b : (-500 <= a <= 500)%Z -> (-500 <= b <= 500)%Z -> fb x a -> away y b -> fb (fdiv x y) (a - b).
Proof.
  intros Ha Hb (Fx & Bx) Ay. pose proof (away_nz y b Ay) as Ny. destruct (div_spec x y (a - b)) as (V & F & B); auto; [lia| |split; auto].
  unfold Rdiv, Zminus. rewrite Rabs_mult, Rabs_inv, bpow_plus, bpow_opp. unfold away in Ay. pose proof (bpow_gt_0 radix2 b).
  apply Rmult_le_compat; auto using Rabs_pos; [apply Rlt_le, Rinv_0_lt_compat; lra|]. apply Rinv_le; lra.
Qed.
Lemma rnd_away x e : (-1074 <= e)%Z -> bpow radix2 e <= Rabs x -> bpow radix2 e <= Rabs (rnd x).
Proof.
  intros He H. unfold Rabs in H. destruct (Rcase_abs x) as [N|N].
  - assert (P : rnd x <= - bpow radix2 e). { apply rnd_le_gen; [apply generic_format_opp, fmt_bpow; auto|lra]. } rewrite Rabs_left1; [lra|]. pose proof (bpow_gt_0 radix2 e). lra.
  - assert (P : bpow radix2 e <= rnd x). { apply rnd_ge; [apply fmt_bpow; auto|lra]. } rewrite Rabs_pos_eq; [lra|]. pose proof (bpow_gt_0 radix2 e). lra.
Qed.
Lemma away_mul x y a b ea eb : (-500 <= a <= 500)%Z -> (-500 <= b <= 500)%Z -> (-500 <= ea <= 500)%Z -> (-500 <= eb <= 500)%Z -> fb x ea -> fb y eb -> away x a -> away y b -> away (fmul x y) (a + b).
Proof.
  intros Ha Hb Hea Heb (Fx & Bx) (Fy & By) Ax Ay. destruct (mul_spec x y (ea + eb)) as (V & _ & _); auto; [lia| |].
  - rewrite Rabs_mult, bpow_plus. apply Rmult_le_compat; auto using Rabs_pos.
  - unfold away in *. rewrite V. apply rnd_away; [lia|]. rewrite Rabs_mult, bpow_plus. pose proof (bpow_gt_0 radix2 a). pose proof (bpow_gt_0 radix2 b). apply Rmult_le_compat; lra.
Qed.
Lemma away_sub x y a e : (-500 <= a <= 500)%Z -> (-500 <= e <= 500)%Z -> fb x e -> fb y e -> bpow radix2 a <= Rabs (B2R x - B2R y) -> away (fsub x y) a.
Proof.
  intros Ha He (Fx & Bx) (Fy & By) H. destruct (sub_spec x y (e + 1)) as (V & _ & _); auto; [lia| |].
  - eapply Rle_trans; [apply (Rabs_triang (B2R x) (- B2R y))|]. rewrite Rabs_Ropp, bpow_plus. change (bpow radix2 1) with 2. lra.
  - unfold away. rewrite V. apply rnd_away; [lia|auto].
Qed.

(** ** The interpolation is finite on any increasing table with gaps *)
Definition gapped (xs : list f64) : Prop :=
  forall i j a b, (i < j)%nat -> nth_error xs i = Some a -> nth_error xs j = Some b -> bpow radix2 (-42) <= B2R b - B2R a.
Lemma gapped_inc xs : gapped xs -> increasing xs.
Proof. intros H i j a b Hij Ha Hb. specialize (H i j a b Hij Ha Hb). pose proof (bpow_gt_0 radix2 (-42)). lra. Qed.
Lemma lag_fb x p q r : fb x 30 -> fb p 30 -> fb q 30 -> fb r 30 -> fb (lag x p q r) 93.
Proof.
  intros Hx Hp Hq Hr. unfold lag. pose proof (fb_sub x p 30 ltac:(lia) Hx Hp). pose proof (fb_sub x q 30 ltac:(lia) Hx Hq). pose proof (fb_sub x r 30 ltac:(lia) Hx Hr).
  apply (fb_mul _ _ (31 + 31) 31); try lia; auto. apply fb_mul; try lia; auto.
Qed.
Lemma lag_away x p q r : fb x 30 -> fb p 30 -> fb q 30 -> fb r 30 -> bpow radix2 (-42) <= Rabs (B2R x - B2R p) -> bpow radix2 (-42) <= Rabs (B2R x - B2R q) -> bpow radix2 (-42) <= Rabs (B2R x - B2R r) -> away (lag x p q r) (-126).
Proof.
  intros Hx Hp Hq Hr Gp Gq Gr. unfold lag. pose proof (fb_sub x p 30 ltac:(lia) Hx Hp) as A. pose proof (fb_sub x q 30 ltac:(lia) Hx Hq) as B. pose proof (fb_sub x r 30 ltac:(lia) Hx Hr) as C.
  change (30 + 1)%Z with 31%Z in *.
  apply (away_mul _ _ (-42 + -42) (-42) (31 + 31) 31); try lia; auto.
  - apply fb_mul; try lia; auto.
  - apply (away_mul _ _ (-42) (-42) 31 31); try lia; auto; apply (away_sub _ _ _ 30); try lia; auto.
  - apply (away_sub _ _ _ 30); try lia; auto.
Qed.
Lemma term_fb y x p q r a : fb y 30 -> fb x 30 -> fb p 30 -> fb q 30 -> fb r 30 -> fb a 30 ->
  bpow radix2 (-42) <= Rabs (B2R a - B2R p) -> bpow radix2 (-42) <= Rabs (B2R a - B2R q) -> bpow radix2 (-42) <= Rabs (B2R a - B2R r) -> fb (term y x p q r a) 249.
Proof.
  intros Hy Hx Hp Hq Hr Ha G1 G2 G3. unfold term. apply (fb_div _ _ (30 + 93) (-126)); try lia; [|apply lag_away; auto].
  apply fb_mul; try lia; auto. apply lag_fb; auto.
Qed.
Lemma interpolate_fb xs ys o x : gapped xs -> (forall i a, nth_error xs i = Some a -> fb a 30) -> (o + 3 < length xs)%nat -> fb x 30 ->
  (forall i, (i < length xs)%nat -> exists y, ys i = Some y /\ fb y 30) -> exists r, interpolate xs ys o x = Some r /\ fb r 252.
Proof.
  intros Hg Hf Ho Hx Hy. unfold interpolate.
  assert (N : forall i, (i < length xs)%nat -> exists a, nth_error xs i = Some a). { intros i Hi. destruct (nth_error xs i) eqn:E; eauto. apply nth_error_None in E. lia. }
  destruct (N o ltac:(lia)) as (x0 & E0). destruct (N (o + 1)%nat ltac:(lia)) as (x1 & E1). destruct (N (o + 2)%nat ltac:(lia)) as (x2 & E2). destruct (N (o + 3)%nat ltac:(lia)) as (x3 & E3).
  destruct (Hy o ltac:(lia)) as (y0 & Y0 & B0). destruct (Hy (o + 1)%nat ltac:(lia)) as (y1 & Y1 & B1). destruct (Hy (o + 2)%nat ltac:(lia)) as (y2 & Y2 & B2). destruct (Hy (o + 3)%nat ltac:(lia)) as (y3 & Y3 & B3).
  rewrite E0, E1, E2, E3, Y0, Y1, Y2, Y3. cbn [bindo]. eexists. split; [reflexivity|].
  assert (G : forall i j a b, (i < j)%nat -> nth_error xs i = Some a -> nth_error xs j = Some b -> bpow radix2 (-42) <= Rabs (B2R a - B2R b) /\ bpow radix2 (-42) <= Rabs (B2R b - B2R a)).
  { intros i j a b Hij Ea Eb. pose proof (Hg i j a b Hij Ea Eb) as D. rewrite (Rabs_minus_sym (B2R a)). pose proof (bpow_gt_0 radix2 (-42)). rewrite Rabs_pos_eq by lra. auto. }
  pose proof (Hf _ _ E0). pose proof (Hf _ _ E1). pose proof (Hf _ _ E2). pose proof (Hf _ _ E3).
  destruct (G o (o + 1)%nat x0 x1 ltac:(lia) E0 E1). destruct (G o (o + 2)%nat x0 x2 ltac:(lia) E0 E2). destruct (G o (o + 3)%nat x0 x3 ltac:(lia) E0 E3).
  destruct (G (o + 1)%nat (o + 2)%nat x1 x2 ltac:(lia) E1 E2). destruct (G (o + 1)%nat (o + 3)%nat x1 x3 ltac:(lia) E1 E3). destruct (G (o + 2)%nat (o + 3)%nat x2 x3 ltac:(lia) E2 E3).
  unfold cubic. apply (fb_add _ _ 251); [lia|apply (fb_add _ _ 250); [lia|apply (fb_add _ _ 249); [lia|..]|]|]; try (eapply fb_le; [apply term_fb; auto|lia]).
Qed.
Lemma using_stride_fb xs st x a l : gapped xs -> (forall i a, nth_error xs i = Some a -> fb a 30) -> (4 <= length xs)%nat -> nth_error xs 0 = Some a -> nth_error xs (length xs - 1) = Some l ->
  is_finite x = true -> B2R a <= B2R x <= B2R l -> (forall i, (i < length xs)%nat -> fb (fmul st (f_of_Z (Z.of_nat i))) 30) -> exists r, using_stride xs st x = Some r /\ fb r 252.
Proof.
  intros Hg Hf Hl Ea El Fx Hx Hs. unfold using_stride. rewrite Ea, El. cbn [bindo].
  destruct (Hf _ _ Ea) as (Fa & Ba). destruct (Hf _ _ El) as (Fl & Bl).
  assert (Bx : fb x 30). { split; auto. apply Rabs_le. apply Rabs_le_inv in Ba, Bl. lra. }
  destruct (Nat.ltb_spec (length xs) 4); [lia|]. rewrite (lt_fin x a Fx Fa), (lt_fin l x Fl Fx), (Rlt_bool_false (B2R x) (B2R a)), (Rlt_bool_false (B2R l) (B2R x)) by apply Hx. cbn [orb].
  destruct (feq x l) eqn:Eq.
  - eexists. split; [reflexivity|]. eapply fb_le; [apply Hs; lia|lia].
  - assert (Lt : B2R x < B2R l). { destruct (Rle_lt_or_eq_dec _ _ (proj2 Hx)) as [|E]; auto. apply (feq_spec x l Fx Fl) in E. congruence. }
    assert (Ff : Forall (fun a => is_finite a = true) xs). { apply Forall_forall. intros z Hz. apply In_nth_error in Hz. destruct Hz as (i & Hz). apply (Hf _ _ Hz). }
    destruct (find_straddle_ok xs x a l (gapped_inc xs Hg) Ff Fx ltac:(lia) Ea El (conj (proj1 Hx) Lt)) as (o & a' & b' & P & Q & _). rewrite P. cbn [bindo].
    destruct (Nat.ltb_spec (length xs - 2) o); [lia|]. apply interpolate_fb; auto.
    + unfold first_point. destruct (Nat.eqb_spec o 0); [lia|]. destruct (Nat.eqb_spec o (length xs - 2)); lia.
    + intros i Hi. eexists. split; [reflexivity|]. auto.
Qed.

(** ** The tables of hll_estimator.go *)
Lemma dec_val m d : (Z.abs m <= 2 ^ 52)%Z -> (0 <= d <= 12)%Z -> is_finite (dec m d) = true /\ B2R (dec m d) = rnd (IZR m / IZR (10 ^ d)) /\ Rabs (IZR m / IZR (10 ^ d)) <= bpow radix2 52.
Proof.
  intros Hm Hd. assert (P : (1 <= 10 ^ d <= 10 ^ 12)%Z). { split; [apply (Z.pow_le_mono_r 10 0 d); lia|apply Z.pow_le_mono_r; lia]. } change (10 ^ 12)%Z with 1000000000000%Z in P.
  destruct (of_Z_exact m) as (Fm & Vm); [lia|]. destruct (of_Z_exact (10 ^ d)) as (Fd & Vd); [lia|].
  assert (P1 : 1 <= IZR (10 ^ d)) by (apply IZR_le; lia).
  assert (Q : Rabs (IZR m / IZR (10 ^ d)) <= bpow radix2 52).
  { unfold Rdiv. rewrite Rabs_mult, Rabs_inv, (Rabs_pos_eq (IZR (10 ^ d))) by lra. apply Rle_trans with (bpow radix2 52 * 1); [|lra].
    apply Rmult_le_compat; auto using Rabs_pos; [apply Rlt_le, Rinv_0_lt_compat; lra|apply IZR_abs_bpow; [lia|auto]|]. rewrite <- Rinv_1. apply Rinv_le; lra. }
  unfold dec. destruct (div_spec (f_of_Z m) (f_of_Z (10 ^ d)) 52) as (V & F & _); auto; try lia; rewrite ?Vm, ?Vd in *; auto. lra.
Qed.
Lemma dec_gap m m' d e : (Z.abs m <= 2 ^ 52)%Z -> (Z.abs m' <= 2 ^ 52)%Z -> (0 <= d <= 12)%Z -> (0 <= e <= 60)%Z -> (Z.abs m <= 2 ^ e * 10 ^ d)%Z -> (Z.abs m' <= 2 ^ e * 10 ^ d)%Z ->
  (10 ^ d * 2 ^ (e + 2) <= 2 ^ 53)%Z -> (m < m')%Z -> / IZR (10 ^ d) / 2 <= B2R (dec m' d) - B2R (dec m d).
Proof.
  intros Hm Hm' Hd He B B' Hg Hl. destruct (dec_val m d Hm Hd) as (_ & -> & _). destruct (dec_val m' d Hm' Hd) as (_ & -> & _).
  assert (P : (1 <= 10 ^ d)%Z) by (apply (Z.pow_le_mono_r 10 0 d); lia). set (T := (10 ^ d)%Z) in *. assert (PT : 1 <= IZR T) by (apply IZR_le; auto).
  assert (X : forall z, (Z.abs z <= 2 ^ e * T)%Z -> Rabs (IZR z / IZR T) <= bpow radix2 e).
  { intros z Hz. unfold Rdiv. rewrite Rabs_mult, Rabs_inv, (Rabs_pos_eq (IZR T)) by lra. apply Rmult_le_reg_r with (IZR T); [lra|]. rewrite Rmult_assoc, Rinv_l, Rmult_1_r by lra.
    rewrite <- abs_IZR, <- IZR_Zpower by lia. change (Z.pow (radix_val radix2) e) with (2 ^ e)%Z. rewrite <- mult_IZR. apply IZR_le. auto. }
  pose proof (rnd_abs_err _ e ltac:(lia) (X m B)) as E1. pose proof (rnd_abs_err _ e ltac:(lia) (X m' B')) as E2.
  assert (S : bpow radix2 (e - 53) <= / IZR T / 4).
  { apply Rmult_le_reg_r with (4 * IZR T); [lra|]. replace (/ IZR T / 4 * (4 * IZR T)) with 1 by (field; lra).
    apply Rmult_le_reg_r with (bpow radix2 53); [apply bpow_gt_0|]. replace (bpow radix2 (e - 53) * (4 * IZR T) * bpow radix2 53) with (IZR T * (bpow radix2 (e - 53) * bpow radix2 53 * 4)) by ring.
    rewrite <- bpow_plus. replace (e - 53 + 53)%Z with e by lia. change 4 with (bpow radix2 2). rewrite <- bpow_plus, <- IZR_Zpower by lia. change (Z.pow (radix_val radix2) (e + 2)) with (2 ^ (e + 2))%Z. rewrite <- mult_IZR, Rmult_1_l. change (bpow radix2 53) with (IZR (2 ^ 53)). apply IZR_le. auto. }
  assert (D : / IZR T <= IZR m' / IZR T - IZR m / IZR T).
  { assert (1 <= IZR m' - IZR m) by (rewrite <- minus_IZR; apply IZR_le; lia). assert (0 < / IZR T) by (apply Rinv_0_lt_compat; lra). unfold Rdiv. nra. }
  apply Rabs_le_inv in E1, E2. lra.
Qed.

Definition tab_ok (p : Z * list Z) : bool :=
  let '(d, l) := p in let e := (if d =? 12 then 10 else 25)%Z in
  ((d =? 12) || (d =? 6))%Z && incb l && (4 <=? length l)%nat && (length l <=? 1000)%nat && forallb (fun m => (1 <=? m) && (m <=? 2 ^ 52) && (m <=? 2 ^ e * 10 ^ d))%Z l.
Lemma tabs_ok : forallb tab_ok xarrs = true /\ length xarrs = 18%nat /\ length ystrides = 18%nat /\ forallb (fun y => (1 <=? y) && (y <=? 2 ^ 19))%Z ystrides = true.
Proof. vm_compute. auto. Qed.
Lemma strict_head_gap (d : Z) l : tab_ok (d, l) = true -> gapped (map (fun m => dec m d) l) /\ (forall i a, nth_error (map (fun m => dec m d) l) i = Some a -> fb a 30 /\ away a (-42) /\ 0 < B2R a) /\ (4 <= length l <= 1000)%nat.
Proof.
  unfold tab_ok. set (e := (if (d =? 12)%Z then 10 else 25)%Z). rewrite !andb_true_iff. intros ((((Hd & Hi) & Hl) & Hl') & Hf).
  apply Nat.leb_le in Hl, Hl'. rewrite forallb_forall in Hf. apply orb_true_iff in Hd. rewrite !Z.eqb_eq in Hd.
  assert (He : (0 <= d <= 12)%Z /\ (0 <= e <= 25)%Z /\ (10 ^ d * 2 ^ (e + 2) <= 2 ^ 53)%Z /\ bpow radix2 (-42) <= / IZR (10 ^ d) / 2).
  { destruct Hd as [->| ->]; unfold e; cbn [Z.eqb Pos.eqb]; (split; [lia|]; split; [lia|]; split; [vm_compute; discriminate|]).
    - change (bpow radix2 (-42)) with (/ 4398046511104). change (IZR (10 ^ 12)) with 1000000000000. lra.
    - change (bpow radix2 (-42)) with (/ 4398046511104). change (IZR (10 ^ 6)) with 1000000. lra. }
  clearbody e. destruct He as (Rd & Re & Rg & Rb).
  assert (M : forall i a, nth_error (map (fun m => dec m d) l) i = Some a -> exists m, nth_error l i = Some m /\ a = dec m d /\ (1 <= m <= 2 ^ 52)%Z /\ (m <= 2 ^ e * 10 ^ d)%Z).
  { intros i a. rewrite nth_error_map. destruct (nth_error l i) as [m|] eqn:E; [|discriminate]. cbn [option_map]. intros H. injection H as <-. exists m. specialize (Hf m (nth_error_In _ _ E)). rewrite !andb_true_iff, !Z.leb_le in Hf. repeat split; auto; try lia. }
  split; [|split; [|lia]].
  - intros i j a b Hij Ea Eb. destruct (M _ _ Ea) as (m & Em & -> & B1 & B2). destruct (M _ _ Eb) as (m' & Em' & -> & B1' & B2').
    eapply Rle_trans; [exact Rb|]. apply (dec_gap m m' d e); try lia. eapply incb_spec; eauto.
  - intros i a Ea. destruct (M _ _ Ea) as (m & Em & -> & B1 & B2). destruct (dec_val m d ltac:(lia) Rd) as (F & V & _).
    assert (P : (1 <= 10 ^ d)%Z) by (apply (Z.pow_le_mono_r 10 0 d); lia). assert (PT : 1 <= IZR (10 ^ d)) by (apply IZR_le; auto).
    assert (X : bpow radix2 (-42) <= IZR m / IZR (10 ^ d) <= bpow radix2 25).
    { split.
      - assert (0 < / IZR (10 ^ d)) by (apply Rinv_0_lt_compat; lra). assert (1 <= IZR m) by (apply IZR_le; lia). unfold Rdiv in *. nra.
      - apply Rle_trans with (bpow radix2 e); [|apply bpow_le; lia]. apply Rmult_le_reg_r with (IZR (10 ^ d)); [lra|]. unfold Rdiv. rewrite Rmult_assoc, Rinv_l, Rmult_1_r by lra.
        rewrite <- IZR_Zpower by lia. change (Z.pow (radix_val radix2) e) with (2 ^ e)%Z. rewrite <- mult_IZR. apply IZR_le. auto. }
    assert (Y : bpow radix2 (-42) <= B2R (dec m d) <= bpow radix2 25). { rewrite V. split; [apply rnd_ge; [apply fmt_bpow; lia|lra]|apply rnd_le_gen; [apply fmt_bpow; lia|lra]]. }
    pose proof (bpow_gt_0 radix2 (-42)). pose proof (bpow_le radix2 25 30 ltac:(lia)). repeat split; auto; [rewrite Rabs_pos_eq; lra|unfold away; rewrite Rabs_pos_eq; lra|lra].
Qed.

(** ** The linear estimate *)
Lemma fb_closed x e : (-900 <= e <= 900)%Z -> is_finite x = true -> fle (Babs x) (f_lit 1 e) = true -> fb x e.
Proof.
  intros He F H. split; auto. destruct (lit_spec 1 e) as (Fl & Vl); [lia|lia|]. assert (Fa : is_finite (Babs x) = true) by (rewrite is_finite_Babs; auto).
  apply (proj1 (fle_spec _ _ Fa Fl)) in H. rewrite B2R_Babs, Vl in H. lra.
Qed.
Lemma fb_nat n : (Z.of_nat n <= 2 ^ 30)%Z -> fb (f_of_Z (Z.of_nat n)) 30 /\ B2R (f_of_Z (Z.of_nat n)) = IZR (Z.of_nat n).
Proof.
  intros H. destruct (of_Z_exact (Z.of_nat n)) as (F & V); [lia|]. split; auto. split; auto. rewrite V. apply IZR_abs_bpow; lia.
Qed.
Lemma away_nat n : (1 <= Z.of_nat n <= 2 ^ 30)%Z -> away (f_of_Z (Z.of_nat n)) 0.
Proof. intros H. destruct (of_Z_exact (Z.of_nat n)) as (F & V); [lia|]. unfold away. rewrite V, <- abs_IZR. change (bpow radix2 0) with 1. apply IZR_le. lia. Qed.
(** What is used of math.Log *)
Definition log_ok (flog : f64 -> f64) : Prop :=
  (forall x : f64, is_finite x = true -> 1 <= B2R x <= bpow radix2 53 -> is_finite (flog x) = true /\ 0 <= B2R (flog x) <= B2R x) /\
  / 2 <= B2R (flog f_2) <= 1.

Lemma nslots_inv lgK : (4 <= lgK <= 21)%N -> (16 <= Z.of_nat (nslots lgK) <= 2 ^ 21)%Z.
Proof.
  intros H. split; [|apply nslots_bound; lia]. unfold nslots. rewrite N_nat_Z. pose proof (N.pow_le_mono_r 2 4 lgK ltac:(lia) ltac:(lia)). change (2 ^ 4)%N with 16%N in *. lia.
Qed.

Section Log.
  Variable flog : f64 -> f64.
  Hypothesis Hlog : log_ok flog.

  Lemma harmonics_fb : forallb (fun p => is_finite (fdiv (f_of_Z (fst p)) (f_of_Z (snd p))) && fle (Babs (fdiv (f_of_Z (fst p)) (f_of_Z (snd p)))) (f_lit 1 2)) harmonics = true.
  Proof. vm_compute. reflexivity. Qed.
  Lemma harmonic_fb n : (Z.of_nat n <= 2 ^ 21)%Z -> fb (harmonic flog n) 37.
  Proof.
    intros Hn. unfold harmonic. destruct (nth_error harmonics n) as [(a, b)|] eqn:E.
    - pose proof harmonics_fb as C. rewrite forallb_forall in C. specialize (C _ (nth_error_In _ _ E)). cbn [fst snd] in C. apply andb_true_iff in C. destruct C as (C1 & C2).
      eapply fb_le; [apply (fb_closed _ 2); [lia|auto|auto]|lia].
    - apply nth_error_None in E. change (length harmonics) with 25%nat in E.
      destruct (fb_nat n ltac:(lia)) as (Fx & Vx). pose proof (away_nat n ltac:(lia)) as Ax. set (x := f_of_Z (Z.of_nat n)) in *.
      assert (F1 : fb f_1 0) by (apply fb_closed; [lia|vm_compute; reflexivity|vm_compute; reflexivity]).
      assert (Xx : away (fmul x x) 0) by (apply (away_mul x x 0 0 30 30); try lia; auto).
      assert (Fi : fb (fdiv f_1 (fmul x x)) 0) by (apply (fb_div _ _ 0 0); try lia; auto). set (isq := fdiv f_1 (fmul x x)) in *.
      destruct Hlog as (HL & _). destruct (HL x) as (Lf & Lb); [apply Fx| |].
      { rewrite Vx. split; [apply IZR_le; lia|]. change (bpow radix2 53) with (IZR (2 ^ 53)). apply IZR_le. lia. }
      assert (Fl : fb (flog x) 30). { split; auto. rewrite Rabs_pos_eq by lra. eapply Rle_trans; [apply Lb|]. destruct Fx as (_ & Bx). apply Rabs_le_inv in Bx. lra. }
      assert (Fe : fb euler 0) by (apply fb_closed; [lia|vm_compute; reflexivity|vm_compute; reflexivity]).
      assert (F2 : fb f_2 1) by (apply fb_closed; [lia|vm_compute; reflexivity|vm_compute; reflexivity]).
      assert (A2 : away f_2 0). { unfold away. rewrite (proj2 f2_val). change (bpow radix2 0) with 1. rewrite Rabs_pos_eq; lra. }
      assert (Fh : fb (fdiv f_1 (fmul f_2 x)) 0). { apply (fb_div _ _ 0 0); try lia; auto. apply (away_mul _ _ 0 0 1 30); try lia; auto. }
      assert (C : forall k, In k [12; 120; 252; 240]%Z -> fb (fdiv f_1 (f_of_Z k)) 0).
      { intros k [<-|[<-|[<-|[<-|[]]]]]; apply fb_closed; try lia; vm_compute; reflexivity. }
      assert (Fp : fb (fmul isq isq) 0) by (apply (fb_mul _ _ 0 0); try lia; auto). set (p := fmul isq isq) in *.
      assert (Fp2 : fb (fmul p isq) 0) by (apply (fb_mul _ _ 0 0); try lia; auto). set (p2 := fmul p isq) in *.
      assert (Fp3 : fb (fmul p2 isq) 0) by (apply (fb_mul _ _ 0 0); try lia; auto). set (p3 := fmul p2 isq) in *.
      assert (D : forall q k, fb q 0 -> In k [12; 120; 252; 240]%Z -> fb (fmul q (fdiv f_1 (f_of_Z k))) 0) by (intros q k Hq Hk; apply (fb_mul _ _ 0 0); try lia; auto).
      eapply fb_le; [apply (fb_add _ _ 35); [lia|apply (fb_sub _ _ 34); [lia|apply (fb_add _ _ 33); [lia|apply (fb_sub _ _ 32); [lia|apply (fb_add _ _ 31); [lia|apply (fb_add _ _ 30); [lia|exact Fl|]|]|]|]|]|]|lia];
        (eapply fb_le; [|match goal with |- (?a <= _)%Z => instantiate (1 := 0%Z) | _ => idtac end]); auto; try lia; apply D; cbn [In]; auto.
  Qed.

  Lemma lin_fb lgK unhit : (4 <= lgK <= 21)%N -> (unhit <= nslots lgK)%nat -> fb (lin_est flog lgK unhit) 70.
  Proof.
    intros HK Hu. pose proof (nslots_inv lgK HK) as BK. unfold lin_est. destruct (fb_nat (nslots lgK) ltac:(lia)) as (FK & VK). destruct (Nat.eqb_spec unhit 0) as [_|N].
    - set (k := f_of_Z (Z.of_nat (nslots lgK))) in *. assert (F5 : is_finite (dec 5 1) = true /\ B2R (dec 5 1) = / 2).
      { destruct (dec_val 5 1) as (A & B & _); [lia|lia|]. split; auto. rewrite B. replace (IZR 5 / IZR (10 ^ 1)) with (1 * bpow radix2 (-1)) by (change (bpow radix2 (-1)) with (/ 2); change (IZR (10 ^ 1)) with 10; lra).
        rewrite rnd_id by (apply (fmt_lit 1); lia). change (bpow radix2 (-1)) with (/ 2). lra. }
      destruct F5 as (F5 & V5). assert (Q : fb (fdiv k (dec 5 1)) 31). { apply (fb_div _ _ 30 (-1)); try lia; auto. unfold away. rewrite V5. change (bpow radix2 (-1)) with (/ 2). rewrite Rabs_pos_eq; lra. }
      assert (Qv : B2R (fdiv k (dec 5 1)) = IZR (2 * Z.of_nat (nslots lgK))).
      { destruct (div_spec k (dec 5 1) 31) as (V & _ & _); [lia|apply FK|rewrite V5; lra| |].
        - rewrite V5, VK. replace (IZR (Z.of_nat (nslots lgK)) / / 2) with (IZR (2 * Z.of_nat (nslots lgK))) by (rewrite mult_IZR; lra). apply IZR_abs_bpow; lia.
        - rewrite V, V5, VK. replace (IZR (Z.of_nat (nslots lgK)) / / 2) with (IZR (2 * Z.of_nat (nslots lgK))) by (rewrite mult_IZR; lra). apply rnd_id, fmt_IZR. lia. }
      destruct Hlog as (HL & _). destruct (HL (fdiv k (dec 5 1))) as (Lf & Lb); [apply Q| |].
      { rewrite Qv. split; [apply IZR_le; lia|]. change (bpow radix2 53) with (IZR (2 ^ 53)). apply IZR_le. lia. }
      eapply fb_le; [apply (fb_mul _ _ 30 31); try lia; auto|lia]. split; auto. rewrite Rabs_pos_eq by lra. eapply Rle_trans; [apply Lb|]. destruct Q as (_ & Q). apply Rabs_le_inv in Q. lra.
    - unfold bitmap_est. eapply fb_le; [apply (fb_mul _ _ 30 38); try lia; [auto|]|lia]. apply (fb_sub _ _ 37); [lia|apply harmonic_fb; lia|apply harmonic_fb; lia].
  Qed.

  (** ** The raw estimate *)
  Lemma small_dec m d : (1 <= m)%Z -> (m <= 10 ^ d)%Z -> (0 <= d <= 4)%Z -> is_finite (dec m d) = true /\ bpow radix2 (-14) <= B2R (dec m d) <= 1.
  Proof.
    intros H1 H2 Hd. assert (P : (1 <= 10 ^ d <= 10 ^ 4)%Z). { split; [apply (Z.pow_le_mono_r 10 0 d); lia|apply Z.pow_le_mono_r; lia]. } change (10 ^ 4)%Z with 10000%Z in P.
    destruct (dec_val m d) as (F & V & _); [lia|lia|]. split; auto. rewrite V.
    assert (PT : 1 <= IZR (10 ^ d) <= 10000) by (split; apply IZR_le; lia). assert (PM : 1 <= IZR m <= IZR (10 ^ d)) by (split; apply IZR_le; lia).
    assert (Q : bpow radix2 (-14) <= IZR m / IZR (10 ^ d) <= 1).
    { assert (0 < / IZR (10 ^ d)) by (apply Rinv_0_lt_compat; lra). assert (/ 10000 <= / IZR (10 ^ d)) by (apply Rinv_le; lra). change (bpow radix2 (-14)) with (/ 16384). unfold Rdiv. split; [nra|].
      apply Rmult_le_reg_r with (IZR (10 ^ d)); [lra|]. rewrite Rmult_assoc, Rinv_l by lra. lra. }
    split; [apply rnd_ge; [apply fmt_bpow; lia|lra]|apply rnd_le_gen; [apply (fmt_IZR 1); lia|lra]].
  Qed.
  Lemma correction_fb lgK : (4 <= lgK <= 21)%N -> fb (correction lgK) 1 /\ 0 < B2R (correction lgK).
  Proof.
    intros HK. pose proof (nslots_inv lgK HK) as BK. pose proof (bpow_gt_0 radix2 (-14)) as P14. change (bpow radix2 (-14)) with (/ 16384) in P14. unfold correction.
    assert (S : forall m d, (1 <= m)%Z -> (m <= 10 ^ d)%Z -> (0 <= d <= 4)%Z -> fb (dec m d) 1 /\ 0 < B2R (dec m d)).
    { intros m d A B C. destruct (small_dec m d A B C) as (F & V). change (bpow radix2 (-14)) with (/ 16384) in V. split; [split; auto; rewrite Rabs_pos_eq; change (bpow radix2 1) with 2; lra|lra]. }
    destruct (lgK =? 4)%N; [apply S; lia|]. destruct (lgK =? 5)%N; [apply S; lia|]. destruct (lgK =? 6)%N; [apply S; lia|].
    destruct (small_dec 7213 4) as (Fa & Ba); [lia..|]. destruct (dec_val 1079 3) as (Fb & Vb & _); [lia..|].
    assert (Bb : 0 <= B2R (dec 1079 3) <= 2). { rewrite Vb. change (IZR (10 ^ 3)) with 1000. split; [apply rnd_nonneg; lra|apply rnd_le_gen; [apply (fmt_IZR 2); lia|lra]]. }
    destruct (fb_nat (nslots lgK) ltac:(lia)) as (FK & VK). set (k := f_of_Z (Z.of_nat (nslots lgK))) in *. assert (PK : 16 <= IZR (Z.of_nat (nslots lgK))) by (apply IZR_le; lia).
    assert (Bq : 0 <= B2R (dec 1079 3) / B2R k <= 1).
    { rewrite VK. assert (0 < / IZR (Z.of_nat (nslots lgK))) by (apply Rinv_0_lt_compat; lra). unfold Rdiv. split; [apply Rmult_le_pos; lra|]. apply Rmult_le_reg_r with (IZR (Z.of_nat (nslots lgK))); [lra|]. rewrite Rmult_assoc, Rinv_l by lra. lra. }
    destruct (div_spec (dec 1079 3) k 0) as (Vq & Fq & _); [lia|auto|rewrite VK; lra|rewrite Rabs_pos_eq by lra; change (bpow radix2 0) with 1; lra|].
    assert (Bq' : 0 <= B2R (fdiv (dec 1079 3) k) <= 1). { rewrite Vq. split; [apply rnd_nonneg; lra|apply rnd_le_gen; [apply (fmt_IZR 1); lia|lra]]. }
    destruct f1_val as (F1 & V1). destruct (add_spec f_1 (fdiv (dec 1079 3) k) 1) as (Vs & Fs & _); [lia|auto|auto|rewrite V1, Rabs_pos_eq by lra; change (bpow radix2 1) with 2; lra|].
    assert (Bs : 1 <= B2R (fadd f_1 (fdiv (dec 1079 3) k)) <= 2). { rewrite Vs, V1. split; [apply rnd_ge; [apply (fmt_IZR 1); lia|lra]|apply rnd_le_gen; [apply (fmt_IZR 2); lia|lra]]. }
    set (s := fadd f_1 (fdiv (dec 1079 3) k)) in *. change (bpow radix2 (-14)) with (/ 16384) in Ba.
    assert (Bd : / 32768 <= B2R (dec 7213 4) / B2R s <= 1).
    { assert (0 < / B2R s) by (apply Rinv_0_lt_compat; lra). assert (/ 2 <= / B2R s <= 1) by (split; [apply Rinv_le; lra|rewrite <- Rinv_1; apply Rinv_le; lra]). unfold Rdiv. nra. }
    destruct (div_spec (dec 7213 4) s 0) as (Vd & Fd & _); [lia|auto|lra|rewrite Rabs_pos_eq by lra; change (bpow radix2 0) with 1; lra|].
    assert (Bd' : / 32768 <= B2R (fdiv (dec 7213 4) s) <= 1). { rewrite Vd. split; [apply rnd_ge; [change (/ 32768) with (bpow radix2 (-15)); apply fmt_bpow; lia|lra]|apply rnd_le_gen; [apply (fmt_IZR 1); lia|lra]]. }
    split; [split; auto; rewrite Rabs_pos_eq; change (bpow radix2 1) with 2; lra|lra].
  Qed.
  Lemma raw_fb lgK s : (4 <= lgK <= 21)%N -> bpow radix2 (-63) <= B2R s -> fb (raw_est lgK s) 124.
  Proof.
    intros HK Hs. pose proof (nslots_inv lgK HK) as BK. destruct (fb_nat (nslots lgK) ltac:(lia)) as (FK & _). destruct (correction_fb lgK HK) as (Fc & _). unfold raw_est.
    apply (fb_div _ _ 61 (-63)); try lia; [apply (fb_mul _ _ 31 30); try lia; auto; apply (fb_mul _ _ 1 30); try lia; auto|]. unfold away. rewrite Rabs_pos_eq; auto. pose proof (bpow_gt_0 radix2 (-63)). lra.
  Qed.

  (** ** The composite estimate is always a finite number *)
  Theorem comp_ok lgK s unhit : (4 <= lgK <= 21)%N -> bpow radix2 (-63) <= B2R s -> (unhit <= nslots lgK)%nat -> exists e, comp_est flog lgK s unhit = Some e /\ fb e 253.
  Proof.
    intros HK Hs Hu. pose proof (nslots_inv lgK HK) as BK. pose proof (raw_fb lgK s HK Hs) as Fr. unfold comp_est. set (raw := raw_est lgK s) in *.
    destruct tabs_ok as (T & L1 & L2 & Ty). rewrite forallb_forall in T, Ty. unfold x_table, y_stride.
    assert (I : (N.to_nat (lgK - 4) < 18)%nat) by lia. set (i := N.to_nat (lgK - 4)) in *.
    destruct (nth_error xarrs i) as [(d, l)|] eqn:E; [|apply nth_error_None in E; lia]. destruct (nth_error ystrides i) as [y|] eqn:Ey; [|apply nth_error_None in Ey; lia].
    cbn [bindo fst snd]. destruct (strict_head_gap d l (T _ (nth_error_In _ _ E))) as (G & B & Ln).
    pose proof (Ty _ (nth_error_In _ _ Ey)) as By. rewrite andb_true_iff, !Z.leb_le in By. set (xs := map (fun m => dec m d) l) in *. assert (Lx : length xs = length l) by apply map_length. rewrite <- Lx in Ln. clear Lx. clearbody xs.
    destruct (nth_error xs 0) as [x0|] eqn:E0; [|apply nth_error_None in E0; lia]. destruct (nth_error xs (length xs - 1)) as [xl|] eqn:El; [|apply nth_error_None in El; lia]. cbn [bindo].
    destruct (B _ _ E0) as (B0 & _ & _). destruct (B _ _ El) as (Bl & Al & _).
    assert (Yi : forall j, (j < length xs)%nat -> fb (fmul (f_of_Z y) (f_of_Z (Z.of_nat j))) 30).
    { intros j Hj. destruct (of_Z_exact y) as (Fy & Vy); [lia|]. destruct (of_Z_exact (Z.of_nat j)) as (Fj & Vj); [lia|].
      apply (fb_mul _ _ 19 11); try lia; split; auto; rewrite ?Vy, ?Vj; apply IZR_abs_bpow; lia. }
    destruct (flt raw x0) eqn:C0; [exists f_zero; split; auto; apply fb_closed; [lia|reflexivity|vm_compute; reflexivity]|].
    destruct (flt xl raw) eqn:Cl.
    - eexists. split; [reflexivity|]. eapply fb_le; [apply (fb_mul _ _ 124 72); try lia; auto; apply (fb_div _ _ 30 (-42)); try lia; auto; apply Yi; lia|lia].
    - destruct (using_stride_fb xs (f_of_Z y) raw x0 xl G ltac:(intros j a Ha; apply (B j a Ha)) ltac:(lia) E0 El (proj1 Fr)) as (adj & -> & Fa); auto.
      { pose proof (proj1 B0). pose proof (proj1 Bl). pose proof (proj1 Fr). split; apply flt_false; auto. }
      cbn [bindo]. destruct (flt _ adj); [exists adj; split; auto; eapply fb_le; [exact Fa|lia]|]. pose proof (lin_fb lgK unhit HK Hu) as Fl.
      match goal with |- context [if ?b then adj else _] => destruct b end; [exists adj|exists (lin_est flog lgK unhit)]; (split; [reflexivity|]); [apply (fb_le _ 252)|apply (fb_le _ 70)]; auto; lia.
  Qed.

  (** ** Relative errors *)
  Definition rel_ok (t : list Z) (b : Z) : bool :=
    forallb (fun i => match nth_error t (3 * i), nth_error t (3 * i + 1), nth_error t (3 * i + 2) with
                      | Some x, Some y, Some z => (Z.abs x <=? Z.abs y) && (Z.abs y <=? Z.abs z) && (Z.abs z <=? b)
                      | _, _, _ => false
                      end)%Z (seq 0 9).
  Lemma rels_ok : rel_ok hip_lb 2000000000 = true /\ rel_ok nonhip_lb 2000000000 = true /\ rel_ok hip_ub 750000000 = true /\ rel_ok nonhip_ub 750000000 = true.
  Proof. vm_compute. auto. Qed.
  Definition rlim (upper : bool) : R := if upper then 3 / 4 else 2.
  Definition zlim (upper : bool) : Z := if upper then 750000000 else 2000000000.
  Lemma rel_tab up ooo : rel_ok (rel_table up ooo) (zlim up) = true.
  Proof. destruct rels_ok as (A & B & C & D). destruct up, ooo; auto. Qed.
  Lemma rel_entry up ooo i : (i < 9)%nat -> exists x y z, nth_error (rel_table up ooo) (3 * i) = Some x /\ nth_error (rel_table up ooo) (3 * i + 1) = Some y /\ nth_error (rel_table up ooo) (3 * i + 2) = Some z /\
    (Z.abs x <= Z.abs y)%Z /\ (Z.abs y <= Z.abs z)%Z /\ (Z.abs z <= zlim up)%Z.
  Proof.
    intros Hi. pose proof (rel_tab up ooo) as T. unfold rel_ok in T. rewrite forallb_forall in T. specialize (T i ltac:(apply in_seq; lia)).
    destruct (nth_error (rel_table up ooo) (3 * i)) as [x|]; [|discriminate]. destruct (nth_error (rel_table up ooo) (3 * i + 1)) as [y|]; [|discriminate]. destruct (nth_error (rel_table up ooo) (3 * i + 2)) as [z|]; [|discriminate].
    rewrite !andb_true_iff, !Z.leb_le in T. exists x, y, z. tauto.
  Qed.
  Lemma abs_dec m : (Z.abs m <= 2000000000)%Z -> is_finite (Babs (dec m 9)) = true /\ B2R (Babs (dec m 9)) = rnd (IZR (Z.abs m) / 1000000000).
  Proof.
    intros H. destruct (dec_val m 9) as (F & V & _); [lia|lia|]. rewrite is_finite_Babs, B2R_Babs. split; auto. rewrite V. change (IZR (10 ^ 9)) with 1000000000.
    rewrite <- round_NE_abs by typeclasses eauto. f_equal. unfold Rdiv. rewrite Rabs_mult, <- abs_IZR. f_equal. apply Rabs_pos_eq. lra.
  Qed.
  Lemma abs_dec_lim up m : (Z.abs m <= zlim up)%Z -> is_finite (Babs (dec m 9)) = true /\ 0 <= B2R (Babs (dec m 9)) <= rlim up.
  Proof.
    intros H. destruct (abs_dec m) as (F & V); [destruct up; cbn [zlim] in H; lia|]. split; auto. rewrite V. assert (0 <= IZR (Z.abs m) <= IZR (zlim up)) by (split; apply IZR_le; lia).
    split; [apply rnd_nonneg; lra|]. destruct up; cbn [zlim rlim] in *.
    - replace (3 / 4) with (IZR 3 * bpow radix2 (-2)) by (change (bpow radix2 (-2)) with (/ 4); lra). apply rnd_le_gen; [apply fmt_lit; lia|]. change (bpow radix2 (-2)) with (/ 4). lra.
    - apply rnd_le_gen; [apply (fmt_IZR 2); lia|lra].
  Qed.
  Lemma factor_ok ooo : is_finite (rse_factor flog ooo) = true /\ 0 <= B2R (rse_factor flog ooo) <= 2.
  Proof.
    destruct Hlog as (HL & H2). destruct f2_val as (F2 & V2). destruct f1_val as (F1 & V1).
    destruct (HL f_2 F2) as (Ff & _). { rewrite V2. change (bpow radix2 53) with 9007199254740992. lra. }
    assert (S : forall x : f64, is_finite x = true -> 0 <= B2R x <= 2 -> is_finite (fsqrt x) = true /\ 0 <= B2R (fsqrt x) <= 2).
    { intros x Fx Bx. destruct (sqrt_spec x Fx ltac:(lra)) as (V & F). split; auto. rewrite V. split; [apply rnd_nonneg, sqrt_pos|]. apply rnd_le_gen; [apply (fmt_IZR 2); lia|].
      apply Rle_trans with (sqrt 4); [apply sqrt_le_1_alt; lra|]. replace 4 with (2 * 2) by lra. rewrite sqrt_square; lra. }
    unfold rse_factor. destruct ooo; [|apply S; auto; lra].
    destruct (of_Z_exact 3) as (F3 & V3); [lia|]. destruct (mul_spec (f_of_Z 3) (flog f_2) 2) as (Vm & Fm & _); [lia|auto|auto|rewrite V3, Rabs_pos_eq by lra; change (bpow radix2 2) with 4; lra|].
    assert (Bm : 1 <= B2R (fmul (f_of_Z 3) (flog f_2)) <= 3). { rewrite Vm, V3. split; [apply rnd_ge; [apply (fmt_IZR 1); lia|lra]|apply rnd_le_gen; [apply (fmt_IZR 3); lia|lra]]. }
    destruct (sub_spec (fmul (f_of_Z 3) (flog f_2)) f_1 2) as (Vs & Fs & _); [lia|auto|auto|rewrite V1, Rabs_pos_eq by lra; change (bpow radix2 2) with 4; lra|].
    apply S; auto. rewrite Vs, V1. split; [apply rnd_nonneg; lra|apply rnd_le_gen; [apply (fmt_IZR 2); lia|lra]].
  Qed.
  Lemma rel_high ooo lgK sd : (13 <= lgK <= 21)%N -> sd_ok sd = true ->
    let r := fdiv (fmul (f_of_Z sd) (rse_factor flog ooo)) (fsqrt (f_of_Z (Z.of_nat (nslots lgK)))) in
    is_finite r = true /\ 0 <= B2R r <= 3 / 4 /\ 64 <= B2R (fsqrt (f_of_Z (Z.of_nat (nslots lgK)))) /\
    B2R r = rnd (rnd (IZR sd * B2R (rse_factor flog ooo)) / B2R (fsqrt (f_of_Z (Z.of_nat (nslots lgK))))).
  Proof.
    intros HK Hs r. assert (Hz : (1 <= sd <= 3)%Z) by (apply sd_cases in Hs; lia). destruct (factor_ok ooo) as (Ff & Bf). destruct (of_Z_exact sd) as (Fs & Vs); [lia|].
    assert (Bs : 1 <= IZR sd <= 3) by (split; apply IZR_le; lia).
    destruct (mul_spec (f_of_Z sd) (rse_factor flog ooo) 3) as (Vm & Fm & _); [lia|auto|auto| |].
    { rewrite Vs, Rabs_pos_eq by (apply Rmult_le_pos; lra). change (bpow radix2 3) with 8. nra. }
    rewrite Vs in Vm. assert (Bm : 0 <= B2R (fmul (f_of_Z sd) (rse_factor flog ooo)) <= 6). { rewrite Vm. split; [apply rnd_nonneg; nra|apply rnd_le_gen; [apply (fmt_IZR 6); lia|nra]]. }
    pose proof (nslots_inv lgK ltac:(lia)) as BK. assert (BK' : (8192 <= Z.of_nat (nslots lgK))%Z). { unfold nslots. rewrite N_nat_Z. pose proof (N.pow_le_mono_r 2 13 lgK ltac:(lia) ltac:(lia)). change (2 ^ 13)%N with 8192%N in *. lia. }
    destruct (of_Z_exact (Z.of_nat (nslots lgK))) as (FK & VK); [lia|]. assert (PK : 8192 <= IZR (Z.of_nat (nslots lgK))) by (apply IZR_le; lia).
    destruct (sqrt_spec (f_of_Z (Z.of_nat (nslots lgK))) FK ltac:(lra)) as (Vq & Fq).
    assert (Bq : 64 <= B2R (fsqrt (f_of_Z (Z.of_nat (nslots lgK))))). { rewrite Vq, VK. apply rnd_ge; [apply (fmt_IZR 64); lia|]. apply Rle_trans with (sqrt (64 * 64)); [rewrite sqrt_square; lra|apply sqrt_le_1_alt; lra]. }
    set (q := fsqrt (f_of_Z (Z.of_nat (nslots lgK)))) in *. set (m := fmul (f_of_Z sd) (rse_factor flog ooo)) in *.
    assert (Q : 0 <= B2R m / B2R q <= / 8). { assert (0 < / B2R q) by (apply Rinv_0_lt_compat; lra). unfold Rdiv. split; [apply Rmult_le_pos; lra|]. apply Rmult_le_reg_r with (B2R q); [lra|]. rewrite Rmult_assoc, Rinv_l by lra. lra. }
    destruct (div_spec m q 0) as (Vr & Fr & _); [lia|auto|lra|rewrite Rabs_pos_eq by lra; change (bpow radix2 0) with 1; lra|]. fold r in Vr, Fr. split; auto. split; [|split; auto; rewrite Vr, Vm; auto].
    rewrite Vr. split; [apply rnd_nonneg; lra|]. apply Rle_trans with (/ 8); [|lra]. apply rnd_le_gen; [change (/ 8) with (bpow radix2 (-3)); apply fmt_bpow; lia|lra].
  Qed.
  Theorem rel_err_ok up ooo lgK sd : (4 <= lgK <= 21)%N -> sd_ok sd = true -> exists r, rel_err flog up ooo lgK sd = Some r /\ is_finite r = true /\ 0 <= B2R r <= rlim up.
  Proof.
    intros HK Hs. unfold rel_err. destruct (N.ltb_spec lgK 4); [lia|]. destruct (N.ltb_spec 21 lgK); [lia|]. cbn [orb]. destruct (N.ltb_spec 12 lgK).
    - eexists. split; [reflexivity|]. destruct (rel_high ooo lgK sd ltac:(lia) Hs) as (F & B & _). split; auto. destruct up; cbn [rlim]; lra.
    - assert (Hi : (N.to_nat (lgK - 4) < 9)%nat) by lia. destruct (rel_entry up ooo _ Hi) as (x & y & z & Ex & Ey & Ez & L1 & L2 & L3).
      replace (N.to_nat ((lgK - 4) * 3)) with (3 * N.to_nat (lgK - 4))%nat by lia. apply sd_cases in Hs. destruct Hs as [->|[->| ->]].
      + change (Z.to_nat (1 - 1)) with 0%nat. rewrite Nat.add_0_r, Ex. cbn [bindo]. eexists. split; [reflexivity|]. apply abs_dec_lim. lia.
      + change (Z.to_nat (2 - 1)) with 1%nat. rewrite Ey. cbn [bindo]. eexists. split; [reflexivity|]. apply abs_dec_lim. lia.
      + change (Z.to_nat (3 - 1)) with 2%nat. rewrite Ez. cbn [bindo]. eexists. split; [reflexivity|]. apply abs_dec_lim. lia.
  Qed.
  Lemma abs_dec_mono x y : (Z.abs x <= Z.abs y)%Z -> (Z.abs y <= 2000000000)%Z -> B2R (Babs (dec x 9)) <= B2R (Babs (dec y 9)).
  Proof. intros H1 H2. destruct (abs_dec x) as (_ & ->); [lia|]. destruct (abs_dec y) as (_ & ->); [lia|]. apply rnd_le. assert (IZR (Z.abs x) <= IZR (Z.abs y)) by (apply IZR_le; auto). lra. Qed.
  Theorem rel_err_mono up ooo lgK s1 s2 r1 r2 : (4 <= lgK <= 21)%N -> sd_ok s1 = true -> sd_ok s2 = true -> (s1 <= s2)%Z ->
    rel_err flog up ooo lgK s1 = Some r1 -> rel_err flog up ooo lgK s2 = Some r2 -> B2R r1 <= B2R r2.
  Proof.
    intros HK H1 H2 Hss. unfold rel_err. destruct (N.ltb_spec lgK 4); [lia|]. destruct (N.ltb_spec 21 lgK); [lia|]. cbn [orb]. destruct (N.ltb_spec 12 lgK) as [Hh|Hh].
    - intros A B. apply (f_equal (fun o => match o with Some x => B2R x | None => 0 end)) in A, B. cbv iota beta in A, B. rewrite <- A, <- B.
      destruct (rel_high ooo lgK s1 ltac:(lia) H1) as (_ & _ & Q & ->). destruct (rel_high ooo lgK s2 ltac:(lia) H2) as (_ & _ & _ & ->). destruct (factor_ok ooo) as (_ & Bf).
      apply rnd_le. unfold Rdiv. apply Rmult_le_compat_r; [apply Rlt_le, Rinv_0_lt_compat; lra|]. apply rnd_le. apply Rmult_le_compat_r; [lra|]. apply IZR_le. auto.
    - assert (Hi : (N.to_nat (lgK - 4) < 9)%nat) by lia. destruct (rel_entry up ooo _ Hi) as (x & y & z & Ex & Ey & Ez & L1 & L2 & L3).
      assert (L4 : (Z.abs z <= 2000000000)%Z) by (destruct up; cbn [zlim] in L3; lia).
      assert (M : B2R (Babs (dec x 9)) <= B2R (Babs (dec y 9)) /\ B2R (Babs (dec y 9)) <= B2R (Babs (dec z 9))) by (split; apply abs_dec_mono; lia).
      replace (N.to_nat ((lgK - 4) * 3)) with (3 * N.to_nat (lgK - 4))%nat by lia.
      set (g := fun s => nth_error (rel_table up ooo) (3 * N.to_nat (lgK - 4) + Z.to_nat (s - 1))).
      change (nth_error (rel_table up ooo) (3 * N.to_nat (lgK - 4) + Z.to_nat (s1 - 1))) with (g s1). change (nth_error (rel_table up ooo) (3 * N.to_nat (lgK - 4) + Z.to_nat (s2 - 1))) with (g s2).
      assert (G1 : g 1%Z = Some x) by (unfold g; change (Z.to_nat (1 - 1)) with 0%nat; rewrite Nat.add_0_r; auto). assert (G2 : g 2%Z = Some y) by exact Ey. assert (G3 : g 3%Z = Some z) by exact Ez. clearbody g.
      intros A B. apply (f_equal (fun o => match o with Some x => B2R x | None => 0 end)) in A, B.
      apply sd_cases in H1, H2. destruct H1 as [->|[->| ->]], H2 as [->|[->| ->]]; try lia; rewrite ?G1, ?G2, ?G3 in A; rewrite ?G1, ?G2, ?G3 in B; cbn [bindo] in A, B; cbv beta iota in A, B; rewrite <- A, <- B; lra.
  Qed.

  (** ** Bounds of a non-negative estimate *)
  Lemma upper_ok e r : is_finite e = true -> 0 <= B2R e <= bpow radix2 300 -> is_finite r = true -> 0 <= B2R r <= 3 / 4 ->
    is_finite (fdiv e (fsub f_1 r)) = true /\ B2R e <= B2R (fdiv e (fsub f_1 r)) /\ / 8 <= B2R (fsub f_1 r) /\ B2R (fsub f_1 r) = rnd (1 - B2R r) /\ B2R (fdiv e (fsub f_1 r)) = rnd (B2R e / B2R (fsub f_1 r)).
  Proof.
    intros Fe Be Fr Br. destruct f1_val as (F1 & V1). destruct (sub_spec f_1 r 0) as (Vs & Fs & _); [lia|auto|auto|rewrite V1, Rabs_pos_eq by lra; change (bpow radix2 0) with 1; lra|]. rewrite V1 in Vs.
    assert (Bs : / 8 <= B2R (fsub f_1 r) <= 1). { rewrite Vs. split; [apply rnd_ge; [change (/ 8) with (bpow radix2 (-3)); apply fmt_bpow; lia|lra]|apply rnd_le_gen; [apply (fmt_IZR 1); lia|lra]]. }
    destruct (div_fac e (fsub f_1 r) 300 Fe Fs Be ltac:(lia) ltac:(lra)) as (Fd & Vd & _). split; auto. split; [|split; [lra|auto]]. rewrite Vd.
    apply rnd_ge; [apply fmt_B2R|]. apply Rmult_le_reg_r with (B2R (fsub f_1 r)); [lra|]. unfold Rdiv. rewrite Rmult_assoc, Rinv_l by lra. apply Rmult_le_compat_l; lra.
  Qed.
  Lemma lower_ok e r : is_finite e = true -> 0 <= B2R e <= bpow radix2 300 -> is_finite r = true -> 0 <= B2R r <= 2 ->
    is_finite (fdiv e (fadd f_1 r)) = true /\ 0 <= B2R (fdiv e (fadd f_1 r)) <= B2R e /\ 1 <= B2R (fadd f_1 r) /\ B2R (fadd f_1 r) = rnd (1 + B2R r) /\ B2R (fdiv e (fadd f_1 r)) = rnd (B2R e / B2R (fadd f_1 r)).
  Proof.
    intros Fe Be Fr Br. destruct f1_val as (F1 & V1). destruct (add_spec f_1 r 2) as (Vs & Fs & _); [lia|auto|auto|rewrite V1, Rabs_pos_eq by lra; change (bpow radix2 2) with 4; lra|]. rewrite V1 in Vs.
    assert (Bs : 1 <= B2R (fadd f_1 r)). { rewrite Vs. apply rnd_ge; [apply (fmt_IZR 1); lia|lra]. }
    destruct (div_fac e (fadd f_1 r) 300 Fe Fs Be ltac:(lia) ltac:(lra)) as (Fd & Vd & Pd). split; auto. split; [|split; [lra|auto]]. split; [lra|]. rewrite Vd.
    apply rnd_le_gen; [apply fmt_B2R|]. apply Rmult_le_reg_r with (B2R (fadd f_1 r)); [lra|]. unfold Rdiv. rewrite Rmult_assoc, Rinv_l by lra. apply Rmult_le_compat_l; lra.
  Qed.
End Log.
