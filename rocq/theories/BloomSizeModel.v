(** * Model of the size suggestions of the Bloom filter and of NewBloomFilterByAccuracy (filters/bloom_filter_builder.go), in binary64.

    [flog] is math.Log, a parameter. [answer] is that of RankModel: [Unspecified] is a conversion to an integer that Go leaves to the
    implementation, because the float64 does not fit; [Refused] is a returned error. Counts are uint64. *)
From Coq Require Import ZArith Bool.
From Flocq Require Import Core BinarySingleNaN.
From Verif Require Import Base Bytes BloomModel FloatModel RankModel.
Local Open Scope N_scope.

(** uint64(x) and uint16(x): the fraction is dropped; unspecified when x is not a number or the result does not fit *)
Definition to_uint (bits : Z) (x : f64) : answer N :=
  if is_finite x then
    let z := Btrunc x in if ((0 <=? z) && (z <? 2 ^ bits))%Z then Ans (Z.to_N z) else Unspecified
  else Unspecified.
Definition fneg : f64 -> f64 := Bopp.
(** math.Ln2 as a float64 *)
Definition f_ln2 : f64 := f_lit 6243314768165359 (-53).

Section Sizes.
  Variable flog : f64 -> f64.
  (** bloom_filter_builder.go:129-136 SuggestNumFilterBits *)
  Definition suggest_bits (n : N) (p : f64) : answer N :=
    to_uint 64 (fceil (fdiv (fmul (fneg (f_of_Z (Z.of_N n))) (flog p)) (fmul f_ln2 f_ln2))).
  (** bloom_filter_builder.go:142-145 SuggestNumHashes *)
  Definition suggest_hashes (p : f64) : answer N := to_uint 16 (fceil (fdiv (fneg (flog p)) f_ln2)).
  (** bloom_filter_builder.go:151-162 SuggestNumHashesFromSize *)
  Definition suggest_hashes_size (n m : N) : answer N :=
    if n =? 0 then Ans 1
    else bind_a (to_uint 16 (fceil (fmul (fdiv (f_of_Z (Z.of_N m)) (f_of_Z (Z.of_N n))) f_ln2)))
           (fun r => Ans (if r =? 0 then 1 else r)).
  (** bloom_filter_builder.go:101-116 NewBloomFilterByAccuracy; the option is the seed *)
  Definition by_accuracy (n : N) (p : f64) (seed : N) : answer bloom :=
    if n =? 0 then Refused
    else if fle p f_zero || fle f_one p then Refused
    else bind_a (suggest_bits n p) (fun m => bind_a (suggest_hashes_size n m) (fun k =>
           match new_bloom m k seed with Some f => Ans f | None => Refused end)).
End Sizes.
