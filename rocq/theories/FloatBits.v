(** * The IEEE 754 bit pattern of a float64: math.Float64bits and math.Float64frombits *)
From Coq Require Import ZArith NArith Reals Bool Psatz.
From Flocq Require Import Core BinarySingleNaN.
From Verif Require Import Base FloatModel FloatProofs.
Local Open Scope Z_scope.

(** sign bit, 11 bits of exponent, 52 bits of mantissa; the literals are 2^52 and 2^63 *)
Definition pattern (s : bool) (ex man : Z) : N := Z.to_N ((if s then 9223372036854775808 else 0) + ex * 4503599627370496 + man).
(** math.Float64bits.  All NaNs are one value of the model; its pattern here is that of math.NaN(). *)
Definition float_bits (x : f64) : N :=
  match x with
  | B754_zero s => pattern s 0 0
  | B754_infinity s => pattern s 2047 0
  | B754_nan => pattern false 2047 2251799813685249
  | B754_finite s m e _ => if Zpos m <? 4503599627370496 then pattern s 0 (Zpos m) else pattern s (e + 1075) (Zpos m - 4503599627370496)
  end.
(** math.Float64frombits *)
Definition float_from (n : N) : f64 :=
  let z := Z.of_N n in
  let s := Z.odd (z / 9223372036854775808) in
  let ex := (z / 4503599627370496) mod 2048 in
  let man := z mod 4503599627370496 in
  if ex =? 2047 then (if man =? 0 then B754_infinity s else B754_nan)
  else
    let v := if ex =? 0 then f_lit man (-1074) else f_lit (man + 4503599627370496) (ex - 1075) in
    if s then Bopp v else v.

Lemma pattern_lt s ex man : 0 <= ex < 2048 -> 0 <= man < 4503599627370496 -> (pattern s ex man < 2 ^ 64)%N.
Proof. intros H1 H2. change (2 ^ 64)%N with (Z.to_N 18446744073709551616). unfold pattern. apply Z2N.inj_lt; destruct s; lia. Qed.
Lemma pattern_parts s ex man : 0 <= ex < 2048 -> 0 <= man < 4503599627370496 -> let z := Z.of_N (pattern s ex man) in
  Z.odd (z / 9223372036854775808) = s /\ (z / 4503599627370496) mod 2048 = ex /\ z mod 4503599627370496 = man.
Proof.
  intros H1 H2. cbv zeta. unfold pattern. rewrite Z2N.id by (destruct s; lia). set (b := if s then 1 else 0). replace (if s then 9223372036854775808 else 0) with (b * 9223372036854775808) by (unfold b; destruct s; lia).
  assert (Hb : 0 <= b <= 1) by (unfold b; destruct s; lia). split; [|split].
  - rewrite <- (Z.div_unique _ 9223372036854775808 b (ex * 4503599627370496 + man)); [unfold b; destruct s; reflexivity|left; lia|lia].
  - rewrite <- (Z.div_unique _ 4503599627370496 (b * 2048 + ex) man); [|left; lia|lia]. symmetry. apply (Z.mod_unique _ _ b); [left; lia|lia].
  - symmetry. apply (Z.mod_unique _ _ (b * 2048 + ex)); [left; lia|lia].
Qed.
Lemma lit_finite m e (H : SpecFloat.bounded 53 1024 m e = true) : f_lit (Zpos m) e = B754_finite false m e H.
Proof.
  pose proof (binary_normalize_correct 53 1024 _ _ mode_NE (Zpos m) e false) as C. cbv zeta in C. set (x := B754_finite false m e H : f64). change (F2R (Float radix2 (Zpos m) e)) with (B2R x) in C.
  assert (R : round radix2 (SpecFloat.fexp 53 1024) (round_mode mode_NE) (B2R x) = B2R x) by (apply round_generic; [apply valid_rnd_round_mode|apply generic_format_B2R]).
  rewrite R in C. rewrite Rlt_bool_true in C by apply abs_B2R_lt_emax. destruct C as (V & F & S). fold (f_lit (Zpos m) e) in V, F, S. apply B2R_Bsign_inj; auto.
  rewrite S. replace (Rcompare (B2R x) 0) with Gt; [reflexivity|]. symmetry. apply Rcompare_Gt. unfold x. cbn [B2R]. apply F2R_gt_0. cbn. lia.
Qed.
Lemma finite_parts m e : SpecFloat.bounded 53 1024 m e = true -> (Zpos m < 4503599627370496 /\ e = -1074) \/ (4503599627370496 <= Zpos m < 9007199254740992 /\ -1074 <= e <= 971).
Proof.
  intros H. unfold SpecFloat.bounded in H. apply andb_prop in H. destruct H as [C E]. apply Zle_bool_imp_le in E. unfold SpecFloat.canonical_mantissa in C. apply Zeq_bool_eq in C. unfold SpecFloat.fexp, SpecFloat.emin in C.
  rewrite Digits.Zpos_digits2_pos in C. set (d := Digits.Zdigits radix2 (Zpos m)) in *. pose proof (Digits.Zdigits_correct radix2 (Zpos m)) as D. fold d in D. cbn [Z.abs] in D. change (radix_val radix2) with 2 in D.
  destruct (Z.ltb_spec (Zpos m) 4503599627370496) as [L|L].
  - left. split; auto. assert (d - 1 < 52). { apply (Z.pow_lt_mono_r_iff 2); [lia|lia|]. change (2 ^ 52) with 4503599627370496. lia. } lia.
  - right. assert (U : d <= 53) by lia. assert (2 ^ d <= 2 ^ 53) by (apply Z.pow_le_mono_r; lia). change (2 ^ 53) with 9007199254740992 in *. lia.
Qed.
(** Patterns are 64 bits wide and read back. *)
Lemma float_bits_lt x : (float_bits x < 2 ^ 64)%N.
Proof.
  destruct x as [s|s| |s m e H]; cbn [float_bits]; try (apply pattern_lt; lia). destruct (finite_parts m e H) as [[A B]|[A B]].
  - rewrite (proj2 (Z.ltb_lt _ _) A). apply pattern_lt; lia.
  - rewrite (proj2 (Z.ltb_ge _ _)) by lia. apply pattern_lt; lia.
Qed.
Lemma float_bits_back x : float_from (float_bits x) = x.
Proof.
  destruct x as [s|s| |s m e H]; cbn [float_bits].
  - destruct s; vm_compute; reflexivity.
  - destruct s; vm_compute; reflexivity.
  - vm_compute. reflexivity.
  - destruct (finite_parts m e H) as [[A B]|[A B]].
    + rewrite (proj2 (Z.ltb_lt _ _) A). unfold float_from. cbv zeta. destruct (pattern_parts s 0 (Zpos m)) as (-> & -> & ->); [lia|lia|]. cbn [Z.eqb]. subst e. rewrite (lit_finite m (-1074) H). destruct s; reflexivity.
    + rewrite (proj2 (Z.ltb_ge _ _)) by lia. unfold float_from. cbv zeta. destruct (pattern_parts s (e + 1075) (Zpos m - 4503599627370496)) as (-> & -> & ->); [lia|lia|].
      rewrite (proj2 (Z.eqb_neq _ _)) by lia. rewrite (proj2 (Z.eqb_neq _ _)) by lia. replace (Zpos m - 4503599627370496 + 4503599627370496) with (Zpos m) by ring. replace (e + 1075 - 1075) with e by ring. rewrite (lit_finite m e H). destruct s; reflexivity.
Qed.
Example float_bits_ex : float_bits (f_of_Z 1) = 4607182418800017408%N /\ float_bits (f_lit (-5) (-1)) = 13836183955189006336%N. Proof. split; vm_compute; reflexivity. Qed.
