(** * Model of the estimators and confidence bounds of the cpc package in binary64.

    The pair (kxp, hipEstAccum) of CpcSketch is the value [F] of CpcModel; [cpc_hip] gives its operations.
    [flog] is math.Log and [fpow] math.Pow.  [None] is an index out of range (a panic). *)
From Verif Require Import Base Bytes Arr FloatModel CpcTable CpcModel HllEstModel CpcEstTables.
From Flocq Require Import BinarySingleNaN.
Local Open Scope Z_scope.

(** float64(k) with k = 1 << lgK *)
Definition f_k (lgK : nat) : f64 := f_of_Z (2 ^ Z.of_nat lgK).

(** ** The accumulators *)
(** utils.go:259-273 makeKxpByteLookup, entry b *)
Definition kxp_byte (b : N) : f64 :=
  fold_left (fun sum col => if N.testbit b col then sum else fadd sum (inv_pow2 (col + 1))) [0; 1; 2; 3; 4; 5; 6; 7]%N f_zero.
(** cpc_sketch.go:487-495: byteSums[j], the sum over the rows in order (the eight sums do not interact) *)
Definition byte_sum (m : list N) (j : nat) : f64 :=
  fold_left (fun sum row => fadd sum (kxp_byte (N.land (N.shiftr row (8 * N.of_nat j)) 255))) m f_zero.
(** cpc_sketch.go:485-502 refreshKXP: bytes 6 down to 0 (the last byte is left out) *)
Definition refresh_kxp (m : list N) : f64 :=
  fold_left (fun total j => fadd total (fmul (inv_pow2 (8 * N.of_nat j)) (byte_sum m j))) [6; 5; 4; 3; 2; 1; 0]%nat f_zero.
(** cpc_sketch.go:365-372 updateHIP *)
Definition update_hip (lgK col : nat) (s : f64 * f64) : f64 * f64 :=
  let one_over_p := fdiv (f_k lgK) (fst s) in
  (fsub (fst s) (inv_pow2 (N.of_nat col + 1)), fadd (snd s) one_over_p).
(** cpc_sketch.go:82-92 (kxp = float64(1 << lgK), hipEstAccum = 0), 365-372 and 485-502 *)
Definition cpc_hip : hip_ops (f64 * f64) :=
  mkOps _ (fun lgK => (f_k lgK, f_zero)) update_hip (fun _ m s => (refresh_kxp m, snd s)).

Section Est.
Variable flog : f64 -> f64.
Variable fpow : f64 -> f64 -> f64.

(** ** ICON *)
(** icon_estimator.go:66-74 evaluatePolynomial over one row of the table: Horner from the last coefficient *)
Definition eval_poly (cs : list f64) (x : f64) : option f64 :=
  match rev cs with [] => None | c :: r => Some (fold_left (fun total a => fadd (fmul total x) a) r c) end.
Definition icon_row (lgK : nat) : option (list f64) :=
  match nth_error icon_coeffs (lgK - 4) with None => None | Some r => Some (map (fun p => f_lit (fst p) (snd p)) r) end.
(** icon_estimator.go:62-64 iconExponentialApproximation *)
Definition icon_exp (k c : f64) : f64 := fmul (fmul (f_lit 7151928925732127 (-53)) k) (fpow f_2 (fdiv c k)).
(** icon_estimator.go:22-60 iconEstimate *)
Definition icon_estimate (lgK : nat) (c : Z) : option f64 :=
  if c =? 0 then Some f_zero
  else if c <? 2 then Some f_1
  else
    let dk := f_k lgK in
    let dc := f_of_Z c in
    let threshold := if (lgK <? 14)%nat then dec 57 1 else dec 56 1 in
    if flt (fmul threshold dk) dc then Some (icon_exp dk dc)
    else
      do row <- icon_row lgK ;
      do factor <- eval_poly row (fdiv dc (fmul f_2 dk)) ;
      let ratio := fdiv dc dk in
      let term := fadd f_1 (fdiv (fmul (fmul ratio ratio) ratio) (f_lit 2349427896429339 (-45))) in
      let result := fmul (fmul dc factor) term in
      Some (if fle dc result then result else dc).

(** ** Confidence bounds *)
(** confidence.go:23-24 iconErrorConstant, hipErrorConstant *)
Definition icon_const : f64 := flog f_2.
Definition hip_const : f64 := fsqrt (fdiv (flog f_2) f_2).
(** confidence.go:63-68, 81-86, 96-101, 114-119: eps, with the index of the table unchecked *)
Definition conf_eps (icon : bool) (lgK : nat) (kappa : Z) : option f64 :=
  do x <- (if (lgK <=? 14)%nat then
             let i := 3 * (Z.of_nat lgK - 4) + (kappa - 1) in
             if i <? 0 then None
             else do v <- nth_error (if icon then icon_high else hip_high) (Z.to_nat i) ; Some (fdiv (f_of_Z v) (f_of_Z 10000))
           else Some (if icon then icon_const else hip_const)) ;
  let rel := fdiv x (fsqrt (f_k lgK)) in
  Some (fmul (f_of_Z kappa) rel).
(** confidence.go:59-75 iconConfidenceLB and 92-108 hipConfidenceLB, after the estimate is known *)
Definition conf_lower (icon : bool) (lgK : nat) (n : Z) (est : option f64) (kappa : Z) : option f64 :=
  if n =? 0 then Some f_zero
  else
    do eps <- conf_eps icon lgK kappa ;
    do est <- est ;
    let result := fdiv est (fadd f_1 eps) in
    Some (if flt result (f_of_Z n) then f_of_Z n else result).
(** confidence.go:77-90 iconConfidenceUB and 110-123 hipConfidenceUB *)
Definition conf_upper (icon : bool) (lgK : nat) (n : Z) (est : option f64) (kappa : Z) : option f64 :=
  if n =? 0 then Some f_zero
  else
    do eps <- conf_eps icon lgK kappa ;
    do est <- est ;
    Some (fceil (fdiv est (fsub f_1 eps))).

(** cpc_sketch.go:121-126 GetEstimate *)
Definition cpc_estimate (s : cpc (f64 * f64)) : option f64 :=
  if c_merged s then icon_estimate (c_lgK s) (Z.of_nat (c_n s)) else Some (snd (c_hip s)).
(** cpc_sketch.go:128-133 GetLowerBound *)
Definition cpc_lower (s : cpc (f64 * f64)) (kappa : Z) : option f64 :=
  if c_merged s then conf_lower true (c_lgK s) (Z.of_nat (c_n s)) (icon_estimate (c_lgK s) (Z.of_nat (c_n s))) kappa
  else conf_lower false (c_lgK s) (Z.of_nat (c_n s)) (Some (snd (c_hip s))) kappa.
(** cpc_sketch.go:135-140 GetUpperBound *)
Definition cpc_upper (s : cpc (f64 * f64)) (kappa : Z) : option f64 :=
  if c_merged s then conf_upper true (c_lgK s) (Z.of_nat (c_n s)) (icon_estimate (c_lgK s) (Z.of_nat (c_n s))) kappa
  else conf_upper false (c_lgK s) (Z.of_nat (c_n s)) (Some (snd (c_hip s))) kappa.
End Est.
