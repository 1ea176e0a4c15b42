(** * Model of the error bounds and size suggestions of the CountMin sketch (count/count_min_sketch.go, count/utils.go), in binary64.

    [e1] is math.Exp(1.0) and [flog] math.Log, parameters. [answer] is that of RankModel: [Unspecified] is a conversion to an
    integer that Go leaves to the implementation, [Refused] a returned error, [Crashed] a panic. *)
From Coq Require Import ZArith Bool.
From Flocq Require Import Core BinarySingleNaN.
From Verif Require Import Base Bytes GoInt CountMinModel FloatModel RankModel.
Local Open Scope Z_scope.

(** int8(x), int32(x): the fraction is dropped; unspecified when x is not a number or the result does not fit *)
Definition to_sint (bits : Z) (x : f64) : answer Z :=
  if is_finite x then
    let z := Btrunc x in if ((- 2 ^ (bits - 1) <=? z) && (z <? 2 ^ (bits - 1)))%Z then Ans z else Unspecified
  else Unspecified.

Section Err.
  Variable e1 : f64.
  Variable flog : f64 -> f64.
  Variable hash : Z -> list N -> Z.
  (** count_min_sketch.go:88-90 GetRelativeError *)
  Definition relative_error (numBuckets : Z) : f64 := fdiv e1 (f_of_Z numBuckets).
  (** count_min_sketch.go:166-168 GetUpperBound; the int64 sum wraps *)
  Definition upper_bound (c : cms) (item : list N) : answer Z :=
    match cm_estimate hash c item with
    | None => Crashed
    | Some e => bind_a (to_int64 (fmul (relative_error (cm_buckets c)) (f_of_Z (cm_total c)))) (fun d => Ans (wrap64 (e + d)))
    end.
  (** count_min_sketch.go:170-174 GetUpperBoundUint64 *)
  Definition upper_bound_u64 (c : cms) (v : N) : answer Z := upper_bound c (le 8 v).
  (** utils.go:25-30 SuggestNumBuckets *)
  Definition suggest_buckets (r : f64) : answer Z := if fle r f_zero then Refused else to_sint 32 (fceil (fdiv e1 r)).
  (** utils.go:32-37 SuggestNumHashes: the conversion comes before the minimum *)
  Definition suggest_rows (c : f64) : answer Z :=
    if flt c f_zero || flt f_one c then Refused
    else bind_a (to_sint 8 (fceil (flog (fdiv f_one (fsub f_one c))))) (fun k => Ans (Z.min k 127)).
End Err.
