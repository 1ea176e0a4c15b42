(** * Model of the normalized rank error of the KLL sketch (kll/utils.go, kll/items_sketch.go), in binary64.

    [fpow] is math.Pow, a parameter. *)
From Coq Require Import ZArith Bool.
From Flocq Require Import Core BinarySingleNaN.
From Verif Require Import FloatModel KllModel.

Section Err.
  Variable fpow : f64 -> f64 -> f64.
  (** utils.go:30-35: the constants 2.446, 0.9433, 2.296, 0.9723, as the float64 nearest to them *)
  Definition pmf_coef : f64 := f_lit 5507902344274117 (-51).
  Definition pmf_exp : f64 := f_lit 8496491056997178 (-53).
  Definition cdf_coef : f64 := f_lit 5170132372221329 (-51).
  Definition cdf_exp : f64 := f_lit 8757699835384667 (-53).
  (** utils.go:118-123 getNormalizedRankError *)
  Definition rank_error (k0 : N) (pmf : bool) : f64 :=
    if pmf then fdiv pmf_coef (fpow (f_of_Z (Z.of_N k0)) pmf_exp) else fdiv cdf_coef (fpow (f_of_Z (Z.of_N k0)) cdf_exp).
  (** items_sketch.go:408-410 GetNormalizedRankError *)
  Definition get_rank_error {C : Type} (s : kll (C := C)) (pmf : bool) : f64 := rank_error (min_k s) pmf.
End Err.
