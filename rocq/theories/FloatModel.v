(** * Go's float64: IEEE 754 binary64 arithmetic, rounding to nearest even.

    The numbers and operations are Flocq's (BinarySingleNaN: all NaNs are one).  The Go compiler may fuse x*y+z on
    some platforms (not on amd64); that is not modelled. *)
From Coq Require Import ZArith Bool.
From Flocq Require Import Core BinarySingleNaN.
Local Open Scope Z_scope.

#[global] Instance prec64 : Prec_gt_0 53 := eq_refl.
#[global] Instance emax64 : Prec_lt_emax 53 1024 := eq_refl.

Definition f64 := binary_float 53 1024.
(** The conversion float64(x) of an integer *)
Definition f_of_Z (z : Z) : f64 := binary_normalize 53 1024 _ _ mode_NE z 0 false.
(** A literal m * 2^e (exact when it fits) *)
Definition f_lit (m e : Z) : f64 := binary_normalize 53 1024 _ _ mode_NE m e false.
Definition fadd : f64 -> f64 -> f64 := Bplus mode_NE.
Definition fsub : f64 -> f64 -> f64 := Bminus mode_NE.
Definition fmul : f64 -> f64 -> f64 := Bmult mode_NE.
Definition fdiv : f64 -> f64 -> f64 := Bdiv mode_NE.
(** math.Sqrt, math.Floor, math.Ceil *)
Definition fsqrt : f64 -> f64 := Bsqrt mode_NE.
Definition ffloor : f64 -> f64 := Bnearbyint mode_DN.
Definition fceil : f64 -> f64 := Bnearbyint mode_UP.
(** The comparisons <=, <, == (false when an operand is NaN) *)
Definition fle (x y : f64) : bool := Bleb x y.
Definition flt (x y : f64) : bool := Bltb x y.
Definition feq (x y : f64) : bool := Beqb x y.

Definition is_pinf (x : f64) : bool := match x with B754_infinity false => true | _ => false end.
Definition is_ninf (x : f64) : bool := match x with B754_infinity true => true | _ => false end.
Definition f_pinf : f64 := B754_infinity false.
Definition f_ninf : f64 := B754_infinity true.
Definition f_nan : f64 := B754_nan.
Definition f_zero : f64 := B754_zero false.
Definition is_zero (x : f64) : bool := match x with B754_zero _ => true | _ => false end.

(** math.Max and math.Min of the Go library (src/math/dim.go), whose special cases are
    Max(x, +Inf) = +Inf, Max(x, NaN) = NaN, Max(+0, -0) = +0 and symmetrically *)
Definition fmax (x y : f64) : f64 :=
  if is_pinf x || is_pinf y then f_pinf
  else if is_nan x || is_nan y then f_nan
  else if is_zero x && is_zero y then (if Bsign x then y else x)
  else if flt y x then x else y.
Definition fmin (x y : f64) : f64 :=
  if is_ninf x || is_ninf y then f_ninf
  else if is_nan x || is_nan y then f_nan
  else if is_zero x && is_zero y then (if Bsign x then x else y)
  else if flt x y then x else y.
