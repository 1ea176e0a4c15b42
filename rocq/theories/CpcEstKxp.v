(** * The float64 accumulator kxp of a CPC sketch *)
From Coq Require Import ZArith Reals Bool Psatz Permutation.
From Flocq Require Import Core Relative BinarySingleNaN.
From Verif Require Import Base Bytes Arr BitPackModel BitPackProofs FloatModel FloatProofs CpcTable CpcTableProofs CpcModel CpcProofs CpcSketch HllEstModel HllEstProofs HllEstCoupon HllEstHip CpcEstTables CpcEstModel.
From Coq Require Import Rdefinitions.
Local Open Scope R_scope.

(** ** Integer weights *)
Definition zsum (l : list Z) : Z := fold_right Z.add 0%Z l.
Lemma zsum_app a b : zsum (a ++ b) = (zsum a + zsum b)%Z.
Proof. induction a as [|x a IH]; cbn [zsum fold_right app]; auto. fold (zsum a). fold (zsum (a ++ b)). lia. Qed.
Lemma zsum_perm a b : Permutation a b -> zsum a = zsum b.
Proof. induction 1; cbn [zsum fold_right] in *; try fold (zsum l) in *; try fold (zsum l') in *; lia. Qed.
Lemma zsum_cons x l : zsum (x :: l) = (x + zsum l)%Z. Proof. reflexivity. Qed.
Lemma zsum_filter {A} (p : A -> bool) f l : zsum (map f (filter p l)) = zsum (map (fun x => if p x then f x else 0%Z) l).
Proof. induction l as [|x l IH]; cbn [filter map]; auto. rewrite zsum_cons, <- IH. destruct (p x); cbn [map]; rewrite ?zsum_cons; lia. Qed.
(** 2^64 times the probability of the column of a coupon *)
Definition colw (x : N) : Z := (2 ^ (63 - Z.of_nat (col_of x)))%Z.
(** 2^64 times what is left of kxp *)
Definition left64 (lgK : nat) (cs : list N) : Z := (2 ^ (Z.of_nat lgK + 64) - zsum (map colw cs))%Z.

(** ** One byte *)
Definition ubit (b c : N) : Z := if N.testbit b c then 0%Z else (2 ^ (7 - Z.of_N c))%Z.
Definition ubyte (b : N) : Z := zsum (map (ubit b) [0; 1; 2; 3; 4; 5; 6; 7]%N).
Lemma zero_good e : good f_zero 0 e.
Proof. split; auto. split; auto. cbn [B2R f_zero]. lra. Qed.
Lemma pow7 c : (c < 8)%N -> (1 <= 2 ^ (7 - Z.of_N c) <= 128)%Z.
Proof. intros H. assert (C : (c = 0 \/ c = 1 \/ c = 2 \/ c = 3 \/ c = 4 \/ c = 5 \/ c = 6 \/ c = 7)%N) by lia. decompose [or] C; subst; vm_compute; split; discriminate. Qed.
Lemma ubit_bound b c : (c < 8)%N -> (0 <= ubit b c <= 2 ^ (7 - Z.of_N c))%Z.
Proof. intros H. pose proof (pow7 c H). unfold ubit. destruct (N.testbit b c); lia. Qed.
Lemma kxp_step b c s p : (c < 8)%N -> good s p (-8) -> (0 <= p <= 2 ^ 20)%Z -> good (if N.testbit b c then s else fadd s (inv_pow2 (c + 1))) (p + ubit b c) (-8).
Proof.
  intros Hc G Hp. unfold ubit. destruct (N.testbit b c); [rewrite Z.add_0_r; auto|]. pose proof (pow7 c Hc) as P. apply good_add; auto; try lia.
  replace (2 ^ (7 - Z.of_N c))%Z with (1 * 2 ^ (7 - Z.of_N c))%Z by lia. apply good_shift; [lia|]. unfold inv_pow2. replace (- Z.of_N (c + 1))%Z with (-8 + (7 - Z.of_N c))%Z by lia. apply good_lit; lia.
Qed.
Lemma ubyte_bound b : (0 <= ubyte b <= 255)%Z.
Proof.
  unfold ubyte. cbn [map zsum fold_right]. pose proof (ubit_bound b 0 ltac:(lia)). pose proof (ubit_bound b 1 ltac:(lia)). pose proof (ubit_bound b 2 ltac:(lia)). pose proof (ubit_bound b 3 ltac:(lia)).
  pose proof (ubit_bound b 4 ltac:(lia)). pose proof (ubit_bound b 5 ltac:(lia)). pose proof (ubit_bound b 6 ltac:(lia)). pose proof (ubit_bound b 7 ltac:(lia)).
  change (2 ^ (7 - Z.of_N 0))%Z with 128%Z in *. change (2 ^ (7 - Z.of_N 1))%Z with 64%Z in *. change (2 ^ (7 - Z.of_N 2))%Z with 32%Z in *. change (2 ^ (7 - Z.of_N 3))%Z with 16%Z in *.
  change (2 ^ (7 - Z.of_N 4))%Z with 8%Z in *. change (2 ^ (7 - Z.of_N 5))%Z with 4%Z in *. change (2 ^ (7 - Z.of_N 6))%Z with 2%Z in *. change (2 ^ (7 - Z.of_N 7))%Z with 1%Z in *. lia.
Qed.
Lemma kxp_byte_good b : good (kxp_byte b) (ubyte b) (-8).
Proof.
  enough (G : forall l s p, Forall (fun c => (c < 8)%N) l -> good s p (-8) -> (0 <= p)%Z -> (p + 128 * Z.of_nat (length l) <= 2 ^ 20)%Z ->
    good (fold_left (fun sum col => if N.testbit b col then sum else fadd sum (inv_pow2 (col + 1))) l s) (p + zsum (map (ubit b) l)) (-8)).
  { apply (G [0; 1; 2; 3; 4; 5; 6; 7]%N f_zero 0%Z); [repeat constructor|apply zero_good|lia|cbn [length]; lia]. }
  induction l as [|c l IH]; intros s p FA G Hp HL; cbn [fold_left map zsum fold_right].
  - rewrite Z.add_0_r. auto.
  - fold (zsum (map (ubit b) l)). inversion FA as [|? ? Hc FA']; subst. rewrite Z.add_assoc. pose proof (ubit_bound b c Hc). pose proof (pow7 c Hc). apply IH; auto.
    + apply kxp_step; auto. lia.
    + lia.
    + cbn [length] in HL. lia.
Qed.

(** ** One column of bytes *)
Definition byte_at (row : N) (j : nat) : N := N.land (N.shiftr row (8 * N.of_nat j)) 255.
Definition usum (m : list N) (j : nat) : Z := zsum (map (fun row => ubyte (byte_at row j)) m).
Lemma usum_bound m j : (0 <= usum m j <= 255 * Z.of_nat (length m))%Z.
Proof. unfold usum. induction m as [|r m IH]; cbn [map zsum fold_right length]; [lia|]. pose proof (ubyte_bound (byte_at r j)). fold (zsum (map (fun row => ubyte (byte_at row j)) m)). lia. Qed.
Lemma byte_sum_good m j : (Z.of_nat (length m) <= 2 ^ 30)%Z -> good (byte_sum m j) (usum m j) (-8).
Proof.
  intros HL. unfold byte_sum, usum. fold (byte_at). 
  enough (G : forall l s p, good s p (-8) -> (0 <= p)%Z -> (p + 255 * Z.of_nat (length l) <= 2 ^ 50)%Z ->
    good (fold_left (fun sum row => fadd sum (kxp_byte (byte_at row j))) l s) (p + zsum (map (fun row => ubyte (byte_at row j)) l)) (-8)).
  { apply (G m f_zero 0%Z); [apply zero_good|lia|lia]. }
  clear. induction l as [|r l IH]; intros s p G Hp HL; cbn [fold_left map zsum fold_right].
  - rewrite Z.add_0_r. auto.
  - fold (zsum (map (fun row => ubyte (byte_at row j)) l)). pose proof (ubyte_bound (byte_at r j)). cbn [length] in HL. rewrite Z.add_assoc. apply IH; try lia. apply good_add; auto; try lia. apply kxp_byte_good.
Qed.

(** ** The whole sum *)
Lemma fmul_inv e f q : good f q (-8) -> (0 <= q <= 2 ^ 50)%Z -> (e <= 100)%N -> is_finite (fmul (inv_pow2 e) f) = true /\ B2R (fmul (inv_pow2 e) f) = IZR q * bpow radix2 (-8 - Z.of_N e).
Proof.
  intros (F & V & _) Hq He. unfold inv_pow2. destruct (lit_spec 1 (- Z.of_N e)) as (Fl & Vl); [lia|lia|].
  assert (E : B2R (f_lit 1 (- Z.of_N e)) * B2R f = IZR q * bpow radix2 (-8 - Z.of_N e)).
  { rewrite Vl, V. unfold Zminus. rewrite bpow_plus. ring. }
  destruct (mul_spec (f_lit 1 (- Z.of_N e)) f 50) as (Vm & Fm & _); auto; [lia| |].
  - rewrite E, Rabs_pos_eq by (apply Rmult_le_pos; [apply IZR_le; lia|apply bpow_ge_0]). replace 50%Z with (50 + 0)%Z by lia. rewrite bpow_plus. apply Rmult_le_compat; [apply IZR_le; lia|apply bpow_ge_0| |apply bpow_le; lia].
    change (bpow radix2 50) with (IZR (2 ^ 50)). apply IZR_le. lia.
  - split; auto. rewrite Vm, E. apply rnd_id. apply fmt_lit; lia.
Qed.
Lemma bpow_m8 e : bpow radix2 (e - 8) = bpow radix2 e / 256.
Proof. unfold Zminus. rewrite bpow_plus. change (bpow radix2 (- (8))) with (/ 256). reflexivity. Qed.
Lemma bpow_m1 e : bpow radix2 (e - 1) = bpow radix2 e / 2.
Proof. unfold Zminus. rewrite bpow_plus. change (bpow radix2 (- (1))) with (/ 2). reflexivity. Qed.
Definition near (lgK : nat) (t : f64) (T : R) (j : nat) : Prop :=
  is_finite t = true /\ 0 <= B2R t <= bpow radix2 (Z.of_nat lgK - 8 * Z.of_nat j) /\ Rabs (B2R t - T) <= bpow radix2 (Z.of_nat lgK - 8 * Z.of_nat j - 52).
Lemma near_step lgK m t T j : (lgK <= 26)%nat -> length m = (2 ^ lgK)%nat -> (j < 7)%nat -> near lgK t T (S j) ->
  near lgK (fadd t (fmul (inv_pow2 (8 * N.of_nat j)) (byte_sum m j))) (T + IZR (usum m j) * bpow radix2 (-8 - 8 * Z.of_nat j)) j.
Proof.
  intros HK HL Hj (Ft & Bt & Et). assert (KZ : Z.of_nat (length m) = (2 ^ Z.of_nat lgK)%Z) by (rewrite HL, Nat2Z.inj_pow; auto).
  assert (KB : (2 ^ Z.of_nat lgK <= 2 ^ 26)%Z) by (apply Z.pow_le_mono_r; lia). pose proof (usum_bound m j) as UB.
  destruct (fmul_inv (8 * N.of_nat j) (byte_sum m j) (usum m j)) as (Fm & Vm); [apply byte_sum_good; lia|lia|lia|]. replace (-8 - Z.of_N (8 * N.of_nat j))%Z with (-8 - 8 * Z.of_nat j)%Z in Vm by lia.
  set (x := fmul _ _) in *. set (e := (Z.of_nat lgK - 8 * Z.of_nat j)%Z) in *. replace (Z.of_nat lgK - 8 * Z.of_nat (S j))%Z with (e - 8)%Z in * by lia.
  assert (Be : bpow radix2 (e - 8) = bpow radix2 e / 256) by apply bpow_m8.
  assert (Bx : 0 <= B2R x <= bpow radix2 e * (255 / 256)).
  { rewrite Vm. split; [apply Rmult_le_pos; [apply IZR_le; lia|apply bpow_ge_0]|]. apply Rle_trans with (IZR (255 * 2 ^ Z.of_nat lgK) * bpow radix2 (-8 - 8 * Z.of_nat j)).
    - apply Rmult_le_compat_r; [apply bpow_ge_0|]. apply IZR_le. lia.
    - rewrite mult_IZR. replace (IZR (2 ^ Z.of_nat lgK)) with (bpow radix2 (Z.of_nat lgK)) by (rewrite <- (IZR_Zpower radix2); [auto|lia]).
      rewrite Rmult_assoc, <- bpow_plus. replace (Z.of_nat lgK + (-8 - 8 * Z.of_nat j))%Z with (e - 8)%Z by lia. rewrite Be. lra. }
  pose proof (bpow_gt_0 radix2 e) as Pe.
  assert (S : 0 <= B2R t + B2R x <= bpow radix2 e) by lra.
  destruct (add_spec t x e) as (Va & Fa & Ba); auto; [lia|rewrite Rabs_pos_eq by lra; lra|].
  unfold near. fold e. split; auto. split.
  - split; [rewrite Va; apply rnd_nonneg; lra|]. apply Rabs_le_inv in Ba. lra.
  - assert (R1 : Rabs (rnd (B2R t + B2R x) - (B2R t + B2R x)) <= bpow radix2 (e - 53)) by (apply rnd_abs_err; [lia|rewrite Rabs_pos_eq by lra; lra]).
    rewrite Va. rewrite <- Vm. replace (rnd (B2R t + B2R x) - (T + B2R x)) with ((rnd (B2R t + B2R x) - (B2R t + B2R x)) + (B2R t - T)) by ring.
    eapply Rle_trans; [apply Rabs_triang|]. assert (A1 : bpow radix2 (e - 53) = bpow radix2 (e - 52) / 2) by (replace (e - 53)%Z with (e - 52 - 1)%Z by lia; apply bpow_m1).
    assert (A2 : bpow radix2 (e - 8 - 52) = bpow radix2 (e - 52) / 256) by (replace (e - 8 - 52)%Z with (e - 52 - 8)%Z by lia; apply bpow_m8).
    rewrite A2 in Et. rewrite A1 in R1. pose proof (bpow_gt_0 radix2 (e - 52)). lra.
Qed.
Lemma refresh_near lgK m : (lgK <= 26)%nat -> length m = (2 ^ lgK)%nat ->
  near lgK (refresh_kxp m) (IZR (2 ^ 48 * usum m 0 + 2 ^ 40 * usum m 1 + 2 ^ 32 * usum m 2 + 2 ^ 24 * usum m 3 + 2 ^ 16 * usum m 4 + 2 ^ 8 * usum m 5 + usum m 6) * bpow radix2 (-56)) 0.
Proof.
  intros HK HL. assert (N7 : near lgK f_zero 0 7).
  { split; auto. cbn [B2R f_zero]. split; [split; [lra|apply bpow_ge_0]|]. rewrite Rminus_0_r, Rabs_R0. apply bpow_ge_0. }
  pose proof (near_step lgK m _ _ 6 HK HL ltac:(lia) N7) as N6. pose proof (near_step lgK m _ _ 5 HK HL ltac:(lia) N6) as N5. pose proof (near_step lgK m _ _ 4 HK HL ltac:(lia) N5) as N4.
  pose proof (near_step lgK m _ _ 3 HK HL ltac:(lia) N4) as N3. pose proof (near_step lgK m _ _ 2 HK HL ltac:(lia) N3) as N2. pose proof (near_step lgK m _ _ 1 HK HL ltac:(lia) N2) as N1. pose proof (near_step lgK m _ _ 0 HK HL ltac:(lia) N1) as N0.
  clear N1 N2 N3 N4 N5 N6 N7. unfold refresh_kxp. cbn [fold_left]. match type of N0 with near _ _ ?a _ => match goal with |- near _ _ ?b _ => replace b with a; [exact N0|] end end.
  rewrite !plus_IZR, !mult_IZR. 
  change (-8 - 8 * Z.of_nat 6)%Z with (-56)%Z. change (-8 - 8 * Z.of_nat 5)%Z with (8 + -56)%Z. change (-8 - 8 * Z.of_nat 4)%Z with (16 + -56)%Z. change (-8 - 8 * Z.of_nat 3)%Z with (24 + -56)%Z.
  change (-8 - 8 * Z.of_nat 2)%Z with (32 + -56)%Z. change (-8 - 8 * Z.of_nat 1)%Z with (40 + -56)%Z. change (-8 - 8 * Z.of_nat 0)%Z with (48 + -56)%Z.
  rewrite !(bpow_plus radix2 _ (-56)). change (bpow radix2 8) with (IZR (2 ^ 8)). change (bpow radix2 16) with (IZR (2 ^ 16)). change (bpow radix2 24) with (IZR (2 ^ 24)). change (bpow radix2 32) with (IZR (2 ^ 32)).
  change (bpow radix2 40) with (IZR (2 ^ 40)). change (bpow radix2 48) with (IZR (2 ^ 48)). ring.
Qed.

(** ** The same sum from the coupons *)
Lemma byte_bit row j i : (i < 8)%N -> N.testbit (byte_at row j) i = N.testbit row (8 * N.of_nat j + i).
Proof. intros H. unfold byte_at. rewrite N.land_spec, N.shiftr_spec by lia. change 255%N with (N.ones 8). rewrite N.ones_spec_low by auto. rewrite andb_true_r. f_equal. lia. Qed.
Definition roww (row : N) : Z := zsum (map (fun c => (2 ^ (63 - Z.of_nat c))%Z) (bits_of row)).

Lemma row_weight row : (forall c, (56 <= c < 64)%nat -> N.testbit row (N.of_nat c) = false) ->
  (2 ^ 56 * ubyte (byte_at row 0) + 2 ^ 48 * ubyte (byte_at row 1) + 2 ^ 40 * ubyte (byte_at row 2) + 2 ^ 32 * ubyte (byte_at row 3) + 2 ^ 24 * ubyte (byte_at row 4)
   + 2 ^ 16 * ubyte (byte_at row 5) + 2 ^ 8 * ubyte (byte_at row 6) + roww row + 2 ^ 8 = 2 ^ 64)%Z.
Proof.
  intros H. unfold roww, bits_of. rewrite zsum_filter.
  assert (B : forall j, ubyte (byte_at row j) = zsum (map (fun i => if N.testbit row (8 * N.of_nat j + i) then 0%Z else (2 ^ (7 - Z.of_N i))%Z) [0; 1; 2; 3; 4; 5; 6; 7]%N)).
  { intros j. unfold ubyte, ubit. f_equal. apply map_ext_in. intros i Hi. rewrite byte_bit; auto. cbn [In] in Hi. decompose [or] Hi; subst; try lia. }
  rewrite !B. clear B.
  assert (S : seq 0 64 = seq 0 56 ++ seq 56 8) by reflexivity. rewrite S, map_app, zsum_app. clear S.
  assert (Z0 : zsum (map (fun c => if N.testbit row (N.of_nat c) then (2 ^ (63 - Z.of_nat c))%Z else 0%Z) (seq 56 8)) = 0%Z).
  { assert (E : map (fun c => if N.testbit row (N.of_nat c) then (2 ^ (63 - Z.of_nat c))%Z else 0%Z) (seq 56 8) = map (fun _ => 0%Z) (seq 56 8)); [|rewrite E; reflexivity].
    apply map_ext_in. intros c Hc. apply in_seq in Hc. rewrite H by lia. auto. }
  rewrite Z0. clear Z0 H. set (tb := N.testbit row). clearbody tb. cbn [seq map]. rewrite !zsum_cons. change (zsum []) with 0%Z.
  repeat match goal with |- context [tb (8 * N.of_nat ?a + ?b)%N] => let v := eval vm_compute in (8 * N.of_nat a + b)%N in change (8 * N.of_nat a + b)%N with v end.
  repeat match goal with |- context [N.of_nat (S ?a)] => let v := eval vm_compute in (N.of_nat (S a)) in change (N.of_nat (S a)) with v end. change (N.of_nat 0) with 0%N.
  repeat match goal with |- context [(2 ^ (63 - Z.of_nat ?a))%Z] => let v := eval vm_compute in (2 ^ (63 - Z.of_nat a))%Z in change (2 ^ (63 - Z.of_nat a))%Z with v end.
  repeat match goal with |- context [(2 ^ (7 - Z.of_N ?a))%Z] => let v := eval vm_compute in (2 ^ (7 - Z.of_N a))%Z in change (2 ^ (7 - Z.of_N a))%Z with v end.
  repeat match goal with |- context [(2 ^ ?a)%Z] => let v := eval vm_compute in (2 ^ a)%Z in change (2 ^ a)%Z with v end.
  assert (D : forall b v, (if b : bool then v else 0%Z) = (v - (if b then 0 else v))%Z) by (intros [|] v; lia).
  assert (M : forall b v, (if b : bool then 0%Z else v) = (v * (if b then 0 else 1))%Z) by (intros [|] v; lia).
  repeat match goal with |- context [if tb ?n then ?v else 0%Z] => rewrite (D (tb n) v) end. 
  repeat match goal with |- context [if tb ?n then 0%Z else ?v] => lazymatch v with 1%Z => fail | _ => rewrite (M (tb n) v) end end.
  ring.
Qed.
Lemma row_cells_gen l i : (forall c, In c l -> (c < 64)%nat) -> zsum (map colw (map (mk_rc i) l)) = zsum (map (fun c => (2 ^ (63 - Z.of_nat c))%Z) l).
Proof.
  induction l as [|c l IH]; intros H; [reflexivity|]. cbn [map]. rewrite !zsum_cons, IH by (intros; apply H; right; auto). f_equal. unfold colw. rewrite col_mk; [reflexivity|apply H; left; auto].
Qed.
Lemma row_cells r i : zsum (map colw (map (mk_rc i) (bits_of r))) = roww r.
Proof. apply row_cells_gen. intros c Hc. apply in_bits_of in Hc. apply Hc. Qed.
#[local] Opaque roww.
Lemma cells_weight m : forall i, zsum (map colw (cells_of m i)) = zsum (map roww m).
Proof.
  induction m as [|r m IH]; intros i; [reflexivity|]. cbn [cells_of map]. rewrite map_app, zsum_app, (IH (S i)), row_cells, zsum_cons. reflexivity.
Qed.
Lemma matrix_weight m : Forall (fun row => forall c, (56 <= c < 64)%nat -> N.testbit row (N.of_nat c) = false) m ->
  (2 ^ 56 * usum m 0 + 2 ^ 48 * usum m 1 + 2 ^ 40 * usum m 2 + 2 ^ 32 * usum m 3 + 2 ^ 24 * usum m 4 + 2 ^ 16 * usum m 5 + 2 ^ 8 * usum m 6 + zsum (map roww m) + 2 ^ 8 * Z.of_nat (length m) = 2 ^ 64 * Z.of_nat (length m))%Z.
Proof.
  intros FA. induction FA as [|r m Hr FA IH]; [reflexivity|]. pose proof (row_weight r Hr) as W. unfold usum in *. cbn [map length]. rewrite !zsum_cons. lia.
Qed.
Lemma K_Z lgK : Z.of_nat (2 ^ lgK) = (2 ^ Z.of_nat lgK)%Z.
Proof. rewrite Nat2Z.inj_pow. auto. Qed.
Lemma K_bpow lgK : IZR (2 ^ Z.of_nat lgK) = bpow radix2 (Z.of_nat lgK).
Proof. rewrite <- (IZR_Zpower radix2); [auto|lia]. Qed.
(** All columns below [d] *)
Definition cols_below (d : nat) (cs : list N) : Prop := forall x, In x cs -> (col_of x < d)%nat.
Definition kxp_ok (lgK : nat) (kxp : f64) (cs : list N) : Prop :=
  is_finite kxp = true /\ 0 <= B2R kxp <= bpow radix2 (Z.of_nat lgK) /\ Rabs (B2R kxp - IZR (left64 lgK cs) * bpow radix2 (-64)) <= bpow radix2 (Z.of_nat lgK - 51).
Lemma matP_low lgK m cs : matP lgK m cs -> cols_below 56 cs -> Forall (fun row => forall c, (56 <= c < 64)%nat -> N.testbit row (N.of_nat c) = false) m.
Proof.
  intros M CB. pose proof (mp_len _ _ _ M) as HL. apply Forall_forall. intros row Hr c Hc. destruct (N.testbit row (N.of_nat c)) eqn:T; auto. exfalso. apply In_nth with (d := 0%N) in Hr. destruct Hr as (i & Hi & Er). rewrite HL in Hi.
  assert (Hx : (mk_rc i c < 2 ^ N.of_nat (6 + lgK))%N) by (apply row_lt; rewrite row_mk; lia). pose proof (mp_in _ _ _ M _ Hx) as Q. rewrite row_mk, col_mk, Er in Q by lia. apply Q in T. apply CB in T. rewrite col_mk in T by lia. lia.
Qed.
Definition tsum (m : list N) : Z := (2 ^ 48 * usum m 0 + 2 ^ 40 * usum m 1 + 2 ^ 32 * usum m 2 + 2 ^ 24 * usum m 3 + 2 ^ 16 * usum m 4 + 2 ^ 8 * usum m 5 + usum m 6)%Z.
Lemma left_tsum lgK m cs : matP lgK m cs -> okc lgK cs -> cols_below 56 cs -> left64 lgK cs = (tsum m * 2 ^ 8 + 2 ^ Z.of_nat lgK * 2 ^ 8)%Z.
Proof.
  intros M [ND LT] CB. pose proof (mp_len _ _ _ M) as HL.
  assert (W : zsum (map colw cs) = zsum (map roww m)). { rewrite <- (cells_weight m 0). apply zsum_perm, Permutation_map. symmetry. eapply matP_cells; eauto. }
  pose proof (matrix_weight m (matP_low lgK m cs M CB)) as MW. rewrite HL, K_Z in MW. unfold left64, tsum. rewrite W, Z.pow_add_r by lia.
  generalize dependent (zsum (map roww m)). generalize (usum m 0) (usum m 1) (usum m 2) (usum m 3) (usum m 4) (usum m 5) (usum m 6). intros. lia.
Qed.
Lemma shift_eq T k : (T * bpow radix2 8 + bpow radix2 k * bpow radix2 8) * bpow radix2 (-64) = T * bpow radix2 (-56) + bpow radix2 (k - 56).
Proof.
  rewrite Rmult_plus_distr_r, Rmult_assoc, Rmult_assoc, <- !bpow_plus. replace (8 + -64)%Z with (-56)%Z by lia. replace (k + -56)%Z with (k - 56)%Z by lia. reflexivity.
Qed.
Lemma refresh_near' lgK m : (lgK <= 26)%nat -> length m = (2 ^ lgK)%nat -> near lgK (refresh_kxp m) (IZR (tsum m) * bpow radix2 (-56)) 0.
Proof. apply refresh_near. Qed.
Lemma refresh_ok lgK m cs : (lgK <= 26)%nat -> matP lgK m cs -> okc lgK cs -> cols_below 56 cs -> kxp_ok lgK (refresh_kxp m) cs.
Proof.
  intros HK M OK CB. destruct (refresh_near' lgK m HK (mp_len _ _ _ M)) as (F & B & E). pose proof (left_tsum lgK m cs M OK CB) as L. unfold kxp_ok. rewrite L. clear L.
  generalize dependent (tsum m). generalize dependent (refresh_kxp m). intros t F B T E.
  replace (Z.of_nat lgK - 8 * Z.of_nat 0)%Z with (Z.of_nat lgK) in * by lia. split; auto. split; auto.
  rewrite plus_IZR, !mult_IZR, K_bpow. change (IZR (2 ^ 8)) with (bpow radix2 8). rewrite shift_eq.
  replace (B2R t - (IZR T * bpow radix2 (-56) + bpow radix2 (Z.of_nat lgK - 56))) with (B2R t - IZR T * bpow radix2 (-56) + - bpow radix2 (Z.of_nat lgK - 56)) by ring.
  eapply Rle_trans; [apply Rabs_triang|]. rewrite Rabs_Ropp, (Rabs_pos_eq (bpow radix2 (Z.of_nat lgK - 56))) by apply bpow_ge_0.
  assert (A : bpow radix2 (Z.of_nat lgK - 56) <= bpow radix2 (Z.of_nat lgK - 52)) by (apply bpow_le; lia).
  assert (A2 : bpow radix2 (Z.of_nat lgK - 52) = bpow radix2 (Z.of_nat lgK - 51) / 2) by (replace (Z.of_nat lgK - 52)%Z with (Z.of_nat lgK - 51 - 1)%Z by lia; apply bpow_m1). lra.
Qed.

(** ** What is left is positive *)
Lemma zsum_incl {A} (f : A -> Z) : (forall x, (0 <= f x)%Z) -> forall a b, NoDup a -> incl a b -> (zsum (map f a) <= zsum (map f b))%Z.
Proof.
  intros P. induction a as [|x a IH]; intros b ND IN.
  - clear IN. cbn [map]. change (zsum []) with 0%Z. induction b as [|y b IHb]; cbn [map]; [reflexivity|]. rewrite zsum_cons. specialize (P y). lia.
  - inversion ND as [|? ? Nx ND']; subst. assert (Hx : In x b) by (apply IN; left; auto). apply in_split in Hx. destruct Hx as (b1 & b2 & ->).
    assert (I2 : incl a (b1 ++ b2)). { intros y Hy. assert (Hb : In y (b1 ++ x :: b2)) by (apply IN; right; auto). apply in_app_iff in Hb. apply in_app_iff. destruct Hb as [|[E|]]; auto. subst y. contradiction. }
    specialize (IH _ ND' I2). rewrite map_app, zsum_app in *. cbn [map]. rewrite !zsum_cons. lia.
Qed.
Definition full (d K : nat) : list N := flat_map (fun r => map (mk_rc r) (seq 0 d)) (seq 0 K).
Lemma seq_weight r d : (d <= 64)%nat -> zsum (map colw (map (mk_rc r) (seq 0 d))) = (2 ^ 64 - 2 ^ (64 - Z.of_nat d))%Z.
Proof.
  induction d as [|d IH]; intros Hd; [reflexivity|]. rewrite seq_S, !map_app, zsum_app, IH by lia. cbn [map plus]. rewrite zsum_cons. change (zsum []) with 0%Z. unfold colw. rewrite col_mk by lia.
  replace (64 - Z.of_nat d)%Z with (Z.succ (63 - Z.of_nat d)) by lia. rewrite Z.pow_succ_r by lia. replace (64 - Z.of_nat (S d))%Z with (63 - Z.of_nat d)%Z by lia. lia.
Qed.
Lemma full_weight d K : (d <= 64)%nat -> zsum (map colw (full d K)) = (Z.of_nat K * (2 ^ 64 - 2 ^ (64 - Z.of_nat d)))%Z.
Proof.
  intros Hd. unfold full. generalize 0%nat at 2. induction K as [|K IH]; intros i; cbn [seq flat_map]; [reflexivity|]. rewrite map_app, zsum_app, IH, seq_weight by auto. lia.
Qed.
Lemma left_lower lgK cs d : okc lgK cs -> cols_below d cs -> (d <= 64)%nat -> (2 ^ (Z.of_nat lgK + 64 - Z.of_nat d) <= left64 lgK cs <= 2 ^ (Z.of_nat lgK + 64))%Z.
Proof.
  intros [ND LT] CB Hd. assert (P : forall x, (0 <= colw x)%Z) by (intros; unfold colw; apply Z.pow_nonneg; lia).
  assert (I : incl cs (full d (2 ^ lgK))).
  { intros x Hx. unfold full. apply in_flat_map. exists (row_of x). split; [apply in_seq; apply LT, row_lt in Hx; lia|]. apply in_map_iff. exists (col_of x). split; [apply mk_row_col|]. apply in_seq. apply CB in Hx. lia. }
  pose proof (zsum_incl colw P cs _ ND I) as Q. rewrite full_weight, K_Z in Q by auto. pose proof (zsum_incl colw P [] cs ltac:(constructor) ltac:(intros ? [])) as Q0. cbn [map] in Q0. change (zsum []) with 0%Z in Q0.
  unfold left64. split; [|lia]. replace (Z.of_nat lgK + 64 - Z.of_nat d)%Z with (Z.of_nat lgK + (64 - Z.of_nat d))%Z by lia. rewrite !Z.pow_add_r by lia. rewrite Z.mul_sub_distr_l in Q. lia.
Qed.
Lemma left_cons lgK x cs : left64 lgK (x :: cs) = (left64 lgK cs - colw x)%Z.
Proof. unfold left64. cbn [map]. rewrite zsum_cons. lia. Qed.
Lemma colw_bpow x : IZR (colw x) * bpow radix2 (-64) = bpow radix2 (- (Z.of_nat (col_of x) + 1)).
Proof.
  unfold colw. pose proof (col_lt x). replace (IZR (2 ^ (63 - Z.of_nat (col_of x)))) with (bpow radix2 (63 - Z.of_nat (col_of x))) by (rewrite <- (IZR_Zpower radix2); [auto|lia]). rewrite <- bpow_plus. f_equal. lia.
Qed.

(** ** The subtraction is exact *)
Lemma sub_pow_exact x lg c : fmt x -> bpow radix2 (- c) <= x -> x <= bpow radix2 lg -> (1 <= c <= 64)%Z -> (lg + c <= 53)%Z -> fmt (x - bpow radix2 (- c)).
Proof.
  intros Fx Hl Hu Hc Hs. pose proof (bpow_gt_0 radix2 (- c)) as Pc. unfold generic_format in Fx. set (M := Ztrunc (scaled_mantissa radix2 (SpecFloat.fexp 53 1024) x)) in *. set (ex := cexp radix2 (SpecFloat.fexp 53 1024) x) in *.
  unfold F2R in Fx. cbn [Fnum Fexp] in Fx.
  assert (Me : ex = Z.max (mag radix2 x - 53) (-1074)) by reflexivity.
  assert (Bx : x < bpow radix2 (ex + 53)).
  { apply Rlt_le_trans with (bpow radix2 (mag radix2 x)); [|apply bpow_le; lia]. rewrite <- (Rabs_pos_eq x) at 1 by lra. apply bpow_mag_gt. }
  destruct (Z_le_gt_dec ex (- c)) as [G|G].
  - assert (E : x - bpow radix2 (- c) = IZR (M - 2 ^ (- c - ex)) * bpow radix2 ex).
    { rewrite minus_IZR. replace (IZR (2 ^ (- c - ex))) with (bpow radix2 (- c - ex)) by (rewrite <- (IZR_Zpower radix2); [auto|lia]). rewrite Rmult_minus_distr_r, <- bpow_plus, <- Fx. f_equal. f_equal. lia. }
    rewrite E. apply fmt_lit; [|lia]. assert (L : (0 <= M - 2 ^ (- c - ex))%Z). { apply le_IZR. apply Rmult_le_reg_r with (bpow radix2 ex); [apply bpow_gt_0|]. rewrite <- E. lra. }
    rewrite Z.abs_eq by auto. apply le_IZR. apply Rmult_le_reg_r with (bpow radix2 ex); [apply bpow_gt_0|]. rewrite <- E. change (IZR (2 ^ 53)) with (bpow radix2 53). rewrite <- bpow_plus. replace (53 + ex)%Z with (ex + 53)%Z by lia. lra.
  - assert (E : x - bpow radix2 (- c) = IZR (M * 2 ^ (ex + c) - 1) * bpow radix2 (- c)).
    { rewrite minus_IZR, mult_IZR. replace (IZR (2 ^ (ex + c))) with (bpow radix2 (ex + c)) by (rewrite <- (IZR_Zpower radix2); [auto|lia]). rewrite Rmult_minus_distr_r, Rmult_assoc, <- bpow_plus. replace (ex + c + - c)%Z with ex by lia. rewrite <- Fx. lra. }
    rewrite E. apply fmt_lit; [|lia]. assert (L : (0 <= M * 2 ^ (ex + c) - 1)%Z). { apply le_IZR. apply Rmult_le_reg_r with (bpow radix2 (- c)); [apply bpow_gt_0|]. rewrite <- E. lra. }
    rewrite Z.abs_eq by auto. apply le_IZR. apply Rmult_le_reg_r with (bpow radix2 (- c)); [apply bpow_gt_0|]. rewrite <- E. change (IZR (2 ^ 53)) with (bpow radix2 53). rewrite <- bpow_plus.
    assert (bpow radix2 lg <= bpow radix2 (53 + - c)) by (apply bpow_le; lia). lra.
Qed.
Lemma kxp_lower lgK kxp cs d : okc lgK cs -> cols_below d cs -> (d <= 47)%nat -> kxp_ok lgK kxp cs -> bpow radix2 (Z.of_nat lgK - Z.of_nat d) * (15 / 16) <= B2R kxp.
Proof.
  intros OK CB Hd (F & B & E). destruct (left_lower lgK cs d OK CB ltac:(lia)) as (L & _). apply IZR_le in L. replace (IZR (2 ^ (Z.of_nat lgK + 64 - Z.of_nat d))) with (bpow radix2 (Z.of_nat lgK + 64 - Z.of_nat d)) in L by (rewrite <- (IZR_Zpower radix2); [auto|lia]).
  apply Rmult_le_compat_r with (r := bpow radix2 (-64)) in L; [|apply bpow_ge_0]. rewrite <- bpow_plus in L. replace (Z.of_nat lgK + 64 - Z.of_nat d + -64)%Z with (Z.of_nat lgK - Z.of_nat d)%Z in L by lia.
  assert (Q : bpow radix2 (Z.of_nat lgK - 51) <= bpow radix2 (Z.of_nat lgK - Z.of_nat d) / 16).
  { change (/ 16) with (bpow radix2 (-4)). unfold Rdiv. change (/ 16) with (bpow radix2 (-4)). rewrite <- bpow_plus. apply bpow_le. lia. }
  apply Rabs_le_inv in E. lra.
Qed.
Lemma kxp_step_ok lgK kxp x cs d : (lgK <= 26)%nat -> okc lgK (x :: cs) -> cols_below d (x :: cs) -> (d <= 47)%nat -> (lgK + d <= 53)%nat -> kxp_ok lgK kxp cs ->
  kxp_ok lgK (fsub kxp (inv_pow2 (N.of_nat (col_of x) + 1))) (x :: cs).
Proof.
  intros HK OK CB Hd Hs (F & B & E). pose proof (CB x (or_introl eq_refl)) as Hc. set (c := (Z.of_nat (col_of x) + 1)%Z).
  destruct (left_lower lgK (x :: cs) d OK CB ltac:(lia)) as (L & _). rewrite left_cons in L. apply IZR_le in L. rewrite minus_IZR in L. replace (IZR (2 ^ (Z.of_nat lgK + 64 - Z.of_nat d))) with (bpow radix2 (Z.of_nat lgK + 64 - Z.of_nat d)) in L by (rewrite <- (IZR_Zpower radix2); [auto|lia]).
  apply Rmult_le_compat_r with (r := bpow radix2 (-64)) in L; [|apply bpow_ge_0]. rewrite <- bpow_plus in L. replace (Z.of_nat lgK + 64 - Z.of_nat d + -64)%Z with (Z.of_nat lgK - Z.of_nat d)%Z in L by lia. rewrite Rmult_minus_distr_r, colw_bpow in L. fold c in L.
  assert (Q : bpow radix2 (Z.of_nat lgK - 51) <= bpow radix2 (Z.of_nat lgK - Z.of_nat d)) by (apply bpow_le; lia).
  assert (G : bpow radix2 (- c) <= B2R kxp) by (apply Rabs_le_inv in E; lra).
  destruct (lit_spec 1 (- c)) as (Fl & Vl); [lia|lia|]. rewrite Rmult_1_l in Vl. replace (inv_pow2 (N.of_nat (col_of x) + 1)) with (f_lit 1 (- c)) by (unfold inv_pow2, c; f_equal; lia).
  pose proof (bpow_gt_0 radix2 (- c)) as Pc.
  destruct (sub_spec kxp (f_lit 1 (- c)) (Z.of_nat lgK)) as (V & Fs & _); auto; [lia|rewrite Vl, Rabs_pos_eq by lra; lra|].
  assert (X : B2R (fsub kxp (f_lit 1 (- c))) = B2R kxp - bpow radix2 (- c)).
  { rewrite V, Vl. apply rnd_id. apply sub_pow_exact with (lg := Z.of_nat lgK); [apply fmt_B2R|auto|apply B|lia|lia]. }
  split; auto. rewrite X. split; [lra|]. rewrite left_cons, minus_IZR, Rmult_minus_distr_r, colw_bpow. fold c.
  replace (B2R kxp - bpow radix2 (- c) - (IZR (left64 lgK cs) * bpow radix2 (-64) - bpow radix2 (- c))) with (B2R kxp - IZR (left64 lgK cs) * bpow radix2 (-64)) by ring. exact E.
Qed.
Lemma kxp_init lgK : (lgK <= 26)%nat -> kxp_ok lgK (f_k lgK) [].
Proof.
  intros HK. assert (P : (2 ^ Z.of_nat lgK <= 2 ^ 26)%Z) by (apply Z.pow_le_mono_r; lia). pose proof (Z.pow_pos_nonneg 2 (Z.of_nat lgK) ltac:(lia) ltac:(lia)).
  destruct (of_Z_exact (2 ^ Z.of_nat lgK)) as (F & V); [lia|]. unfold kxp_ok, f_k. rewrite V, K_bpow. split; auto. split; [split; [apply bpow_ge_0|lra]|].
  unfold left64. cbn [map]. change (zsum []) with 0%Z. rewrite Z.sub_0_r. replace (IZR (2 ^ (Z.of_nat lgK + 64))) with (bpow radix2 (Z.of_nat lgK + 64)) by (rewrite <- (IZR_Zpower radix2); [auto|lia]). rewrite <- bpow_plus.
  replace (Z.of_nat lgK + 64 + -64)%Z with (Z.of_nat lgK) by lia. unfold Rminus. rewrite Rplus_opp_r, Rabs_R0. apply bpow_ge_0.
Qed.
