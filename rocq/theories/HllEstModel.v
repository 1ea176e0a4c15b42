(** * Model of the estimators and confidence bounds of the hll package in binary64.

    The float64 registers kxq0 and kxq1 of an array are [f_lit k0 (-31)] and [f_lit k1 (-63)] for the integers of HllModel; that the
    code's float64 operations on them produce exactly these is a theorem (HllEstProps.hll_kxq_exact), except in
    checkRebuildCurMinNumKxQ, which is modelled with its own float64 sums ([rebuild_kxq]).
    [flog] is math.Log. [None] is a returned error (or an index out of range, which the theorems exclude). *)
From Verif Require Import Base Bytes Arr FloatModel HllModel HllEstTables.
From Flocq Require Import BinarySingleNaN.
Local Open Scope Z_scope.

(** A decimal constant m / 10^d: both integers are exact, so the quotient is the constant rounded once. *)
Definition dec (m d : Z) : f64 := fdiv (f_of_Z m) (f_of_Z (10 ^ d)).
Definition f_1 : f64 := f_of_Z 1.
Definition f_2 : f64 := f_of_Z 2.
(** The builtin max on float64: NaN if an operand is NaN, else as math.Max. *)
Definition bmax (x y : f64) : f64 := if is_nan x || is_nan y then f_nan else fmax x y.
(** internal/utils.go:57-62 InvPow2, for 0 <= e <= 1022 *)
Definition inv_pow2 (e : N) : f64 := f_lit 1 (- Z.of_N e).

(** ** HIP and KxQ *)
(** hll_array.go:275-308 incrementalUpdateKxQ: subtract the old, then add the new, each to kxq0 below 32 and to kxq1 otherwise *)
Definition kxq_step (old new : N) (q : f64 * f64) : f64 * f64 :=
  let q := if (old <? 32)%N then (fsub (fst q) (inv_pow2 old), snd q) else (fst q, fsub (snd q) (inv_pow2 old)) in
  if (new <? 32)%N then (fadd (fst q) (inv_pow2 new), snd q) else (fst q, fadd (snd q) (inv_pow2 new)).
(** The registers as float64 *)
Definition kxq_of (k0 k1 : Z) : f64 * f64 := (f_lit k0 (-31), f_lit k1 (-63)).
(** hll_array.go:164-166, 268-270: hipAccum += K / (kxq0 + kxq1) *)
Definition hip_f (lgK : N) (k0 k1 : Z) (h : f64) : f64 :=
  fadd h (fdiv (f_of_Z (Z.of_N (2 ^ lgK))) (fadd (fst (kxq_of k0 k1)) (snd (kxq_of k0 k1)))).
(** union.go:317-347 checkRebuildCurMinNumKxQ: the two sums, over the registers in slot order *)
Fixpoint rebuild_kxq (rs : list N) (q : f64 * f64) : f64 * f64 :=
  match rs with
  | [] => q
  | v :: r =>
    rebuild_kxq r (if (0 <? v)%N then
                     if (v <? 32)%N then (fadd (fst q) (fsub (inv_pow2 v) f_1), snd q)
                     else (fst q, fadd (snd q) (fsub (inv_pow2 v) f_1))
                   else q)
  end.

(** ** Interpolation (cubic_interpolation.go) *)
(** cubic_interpolation.go:124-144 recursiveFindStraddle; the fuel is the length of the table (enough: proved) *)
Fixpoint straddle_rec (fuel : nat) (xs : list f64) (left right : nat) (x : f64) : option nat :=
  match fuel with
  | O => None
  | S fu =>
    if (right <=? left)%nat then None
    else
      do a <- nth_error xs left; do b <- nth_error xs right;
      if flt x a || fle b x then None
      else if (left + 1 =? right)%nat then Some left
      else
        let middle := (left + (right - left) / 2)%nat in
        do m <- nth_error xs middle;
        if fle m x then straddle_rec fu xs middle right x else straddle_rec fu xs left middle x
  end.
(** cubic_interpolation.go:116-121 findStraddle *)
Definition find_straddle (xs : list f64) (x : f64) : option nat :=
  if (length xs <? 2)%nat then None
  else
    do a <- nth_error xs 0; do b <- nth_error xs (length xs - 1);
    if flt x a || flt b x then None else straddle_rec (length xs) xs 0 (length xs - 1) x.

(** cubic_interpolation.go:96-113 cubicInterpolate *)
Definition lag (x p q r : f64) : f64 := fmul (fmul (fsub x p) (fsub x q)) (fsub x r).
Definition term (y x p q r a : f64) : f64 := fdiv (fmul y (lag x p q r)) (lag a p q r).
Definition cubic (x0 y0 x1 y1 x2 y2 x3 y3 x : f64) : f64 :=
  fadd (fadd (fadd (term y0 x x1 x2 x3 x0) (term y1 x x0 x2 x3 x1)) (term y2 x x0 x1 x3 x2)) (term y3 x x0 x1 x2 x3).

(** The offset of the first of the four points (cubic_interpolation.go:37-47 and :73-83) *)
Definition first_point (len offset : nat) : nat :=
  if (offset =? 0)%nat then 0%nat else if (offset =? len - 2)%nat then (offset - 2)%nat else (offset - 1)%nat.
(** interpolateUsingXAndYTables and interpolateUsingXArrAndYStride (cubic_interpolation.go:50-57, 87-92): [ys i] is the i-th ordinate *)
Definition interpolate (xs : list f64) (ys : nat -> option f64) (o : nat) (x : f64) : option f64 :=
  do x0 <- nth_error xs o; do x1 <- nth_error xs (o + 1); do x2 <- nth_error xs (o + 2); do x3 <- nth_error xs (o + 3);
  do y0 <- ys o; do y1 <- ys (o + 1)%nat; do y2 <- ys (o + 2)%nat; do y3 <- ys (o + 3)%nat;
  Some (cubic x0 y0 x1 y1 x2 y2 x3 y3 x).

(** cubic_interpolation.go:23-48 usingXAndYTables *)
Definition using_tables (xs ys : list f64) (x : f64) : option f64 :=
  if (length xs <? 4)%nat || negb (length xs =? length ys)%nat then None
  else
    do l <- nth_error xs (length xs - 1);
    if feq x l then nth_error ys (length ys - 1)
    else
      do o <- find_straddle xs x;
      if (length xs - 2 <? o)%nat then None else interpolate xs (nth_error ys) (first_point (length xs) o) x.

(** cubic_interpolation.go:59-84 usingXArrAndYStride *)
Definition using_stride (xs : list f64) (ystride x : f64) : option f64 :=
  do a <- nth_error xs 0; do l <- nth_error xs (length xs - 1);
  if (length xs <? 4)%nat || flt x a || flt l x then None
  else if feq x l then Some (fmul ystride (f_of_Z (Z.of_nat (length xs - 1))))
  else
    do o <- find_straddle xs x;
    if (length xs - 2 <? o)%nat then None
    else interpolate xs (fun i => Some (fmul ystride (f_of_Z (Z.of_nat i)))) (first_point (length xs) o) x.

(** ** Coupon modes (coupon.go) *)
Definition coupon_xs : list f64 := map f_of_Z coupon_x.
Definition coupon_ys : list f64 := map (fun p => f_lit (fst p) (snd p)) coupon_y.
(** The interpolated number for n coupons, 0 with an error *)
Definition coupon_raw (n : nat) : option f64 := using_tables coupon_xs coupon_ys (f_of_Z (Z.of_nat n)).
Definition or_zero (o : option f64) : f64 := match o with Some x => x | None => f_zero end.
(** coupon.go:75-79 getEstimate: the value and whether there is no error *)
Definition coupon_est (n : nat) : f64 := bmax (or_zero (coupon_raw n)) (f_of_Z (Z.of_nat n)).
Definition coupon_estimate (n : nat) : option f64 := do _ <- coupon_raw n; Some (coupon_est n).
(** utils.go:43-44 couponRSE = .409 / 2^13, an untyped constant *)
Definition coupon_rse : f64 := fdiv (f_of_Z 409) (f_of_Z (1000 * 2 ^ 13)).
(** utils.go:137-142 checkNumStdDev *)
Definition sd_ok (sd : Z) : bool := negb ((sd <? 1) || (3 <? sd)).
(** coupon.go:81-90 getUpperBound, :92-101 getLowerBound *)
Definition coupon_upper (n : nat) (sd : Z) : option f64 :=
  if sd_ok sd then
    do est <- coupon_raw n;
    Some (bmax (fdiv est (fsub f_1 (fmul (f_of_Z sd) coupon_rse))) (f_of_Z (Z.of_nat n)))
  else None.
Definition coupon_lower (n : nat) (sd : Z) : option f64 :=
  if sd_ok sd then
    do est <- coupon_raw n;
    Some (bmax (fdiv est (fadd f_1 (fmul (f_of_Z sd) coupon_rse))) (f_of_Z (Z.of_nat n)))
  else None.

Section Log.
  Variable flog : f64 -> f64.

  (** ** The bitmap estimate (harmonic_numbers.go, hll_estimator.go:79-95) *)
  Definition euler : f64 := f_lit 5199096506725913 (-53).
  (** harmonic_numbers.go:66-85 harmonicNumber; 1.0 / 12.0 and the like are constants *)
  Definition harmonic (n : nat) : f64 :=
    match nth_error harmonics n with
    | Some (a, b) => fdiv (f_of_Z a) (f_of_Z b)
    | None =>
      let x := f_of_Z (Z.of_nat n) in
      let isq := fdiv f_1 (fmul x x) in
      let s := fadd (fadd (flog x) euler) (fdiv f_1 (fmul f_2 x)) in
      let s := fsub s (fmul isq (fdiv f_1 (f_of_Z 12))) in
      let p := fmul isq isq in
      let s := fadd s (fmul p (fdiv f_1 (f_of_Z 120))) in
      let p := fmul p isq in
      let s := fsub s (fmul p (fdiv f_1 (f_of_Z 252))) in
      let p := fmul p isq in
      fadd s (fmul p (fdiv f_1 (f_of_Z 240)))
    end.
  (** harmonic_numbers.go:61-63 getBitMapEstimate *)
  Definition bitmap_est (k hit : nat) : f64 := fmul (f_of_Z (Z.of_nat k)) (fsub (harmonic k) (harmonic (k - hit))).
  (** hll_estimator.go:81-95 getHllBitMapEstimate; [unhit] is numAtCurMin if curMin is 0, else 0 *)
  Definition lin_est (lgK : N) (unhit : nat) : f64 :=
    let k := nslots lgK in
    if (unhit =? 0)%nat then fmul (f_of_Z (Z.of_nat k)) (flog (fdiv (f_of_Z (Z.of_nat k)) (dec 5 1))) else bitmap_est k (k - unhit).

  (** hll_estimator.go:98-113 getHllRawEstimate *)
  Definition correction (lgK : N) : f64 :=
    if (lgK =? 4)%N then dec 673 3 else if (lgK =? 5)%N then dec 697 3 else if (lgK =? 6)%N then dec 709 3
    else fdiv (dec 7213 4) (fadd f_1 (fdiv (dec 1079 3) (f_of_Z (Z.of_nat (nslots lgK))))).
  Definition raw_est (lgK : N) (s : f64) : f64 :=
    let k := f_of_Z (Z.of_nat (nslots lgK)) in fdiv (fmul (fmul (correction lgK) k) k) s.

  Definition x_table (lgK : N) : option (list f64) :=
    do p <- nth_error xarrs (N.to_nat (lgK - 4)); Some (map (fun m => dec m (fst p)) (snd p)).
  Definition y_stride (lgK : N) : option f64 := do y <- nth_error ystrides (N.to_nat (lgK - 4)); Some (f_of_Z y).
  Definition cross_over (lgK : N) : f64 := if (lgK =? 4)%N then dec 718 3 else if (lgK =? 5)%N then dec 672 3 else dec 64 2.

  (** hll_estimator.go:26-77 hllCompositeEstimate, from kxq0 + kxq1 and the number of empty slots *)
  Definition comp_est (lgK : N) (s : f64) (unhit : nat) : option f64 :=
    let raw := raw_est lgK s in
    do xs <- x_table lgK; do ys <- y_stride lgK;
    do x0 <- nth_error xs 0; do xl <- nth_error xs (length xs - 1);
    if flt raw x0 then Some f_zero
    else if flt xl raw then Some (fmul raw (fdiv (fmul ys (f_of_Z (Z.of_nat (length xs - 1)))) xl))
    else
      do adj <- using_stride xs ys raw;
      if flt (f_of_Z (Z.of_nat (3 * nslots lgK))) adj then Some adj
      else
        let lin := lin_est lgK unhit in
        let avg := fdiv (fadd adj lin) f_2 in
        Some (if flt (fmul (cross_over lgK) (f_of_Z (Z.of_nat (nslots lgK)))) avg then adj else lin).

  (** ** Bounds (hll_estimator.go:115-162, relative_error_tables.go:79-96) *)
  (** utils.go:52-53 hllNonHipRSEFactor, hllHipRSEFActor *)
  Definition rse_factor (ooo : bool) : f64 :=
    if ooo then fsqrt (fsub (fmul (f_of_Z 3) (flog f_2)) f_1) else fsqrt (flog f_2).
  Definition rel_table (upper ooo : bool) : list Z :=
    match ooo, upper with false, false => hip_lb | false, true => hip_ub | true, false => nonhip_lb | true, true => nonhip_ub end.
  Definition rel_err (upper ooo : bool) (lgK : N) (sd : Z) : option f64 :=
    if (lgK <? 4)%N || (21 <? lgK)%N then None
    else if (12 <? lgK)%N then Some (fdiv (fmul (f_of_Z sd) (rse_factor ooo)) (fsqrt (f_of_Z (Z.of_nat (nslots lgK)))))
    else do m <- nth_error (rel_table upper ooo) (N.to_nat ((lgK - 4) * 3) + Z.to_nat (sd - 1)); Some (Babs (dec m 9)).

  (** ** The queries of a sketch *)
  Definition unhit_of (h : harr f64) : nat := if (a_curMin h =? 0)%N then a_num h else 0%nat.
  (** kxq0 + kxq1: the exact sum rounded once, which is what the addition of the two exact registers gives (HllEstProps.hll_kxq_exact,
      HllEstProps.hll_rebuild_exact; not after a rebuild with a register above 31, HllEstProps.hll_rebuild_infinite_refuted) *)
  Definition kxq_sum (h : harr f64) : f64 := f_lit (a_kxq0 h * 2 ^ 32 + a_kxq1 h) (-63).
  (** hll_array.go:97-99 GetCompositeEstimate; coupon_list.go:30-32, coupon_hash_set.go:30-32 *)
  Definition q_composite (s : hstate f64) : option f64 :=
    match s with
    | HList _ _ _ cnt | HSet _ _ _ _ cnt => coupon_estimate cnt
    | HArr _ h => comp_est (a_lgK h) (kxq_sum h) (unhit_of h)
    end.
  (** hll_array.go:89-94 GetEstimate; coupon_list.go:34-36, coupon_hash_set.go:34-36 *)
  Definition q_estimate (s : hstate f64) : option f64 :=
    match s with HArr _ h => if a_ooo h then q_composite s else Some (a_hip h) | _ => q_composite s end.
  (** hll_array.go:109-115 GetUpperBound with hll_estimator.go:115-127; coupon_list.go:46-48, coupon_hash_set.go:46-48 *)
  Definition q_upper (s : hstate f64) (sd : Z) : option f64 :=
    match s with
    | HList _ _ _ cnt | HSet _ _ _ _ cnt => coupon_upper cnt sd
    | HArr _ h =>
      if sd_ok sd then
        do e <- q_estimate s; do r <- rel_err true (a_ooo h) (a_lgK h) sd; Some (fdiv e (fsub f_1 r))
      else None
    end.
  (** hll_array.go:117-123 GetLowerBound with hll_estimator.go:129-146; coupon_list.go:42-44, coupon_hash_set.go:42-44 *)
  Definition non_zeros (h : harr f64) : f64 :=
    let k := f_of_Z (Z.of_nat (nslots (a_lgK h))) in
    if (a_curMin h =? 0)%N then fsub k (f_of_Z (Z.of_nat (a_num h))) else k.
  Definition q_lower (s : hstate f64) (sd : Z) : option f64 :=
    match s with
    | HList _ _ _ cnt | HSet _ _ _ _ cnt => coupon_lower cnt sd
    | HArr _ h =>
      if sd_ok sd then
        do e <- q_estimate s; do r <- rel_err false (a_ooo h) (a_lgK h) sd;
        Some (fmax (fdiv e (fadd f_1 r)) (non_zeros h))
      else None
    end.
End Log.
