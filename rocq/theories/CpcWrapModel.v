(** * Model of the read-only view of a CPC image (cpc/cpc_wrapper.go).

    The accumulators kxp and hipEstAccum are float64; their patterns in the image are those of
    math.Float64bits (FloatBits).  A panic is [None]. *)
From Coq Require Import ZArith.
From Verif Require Import Base Bytes Arr BitPackModel FloatModel FloatBits CpcTable CpcModel CpcTables CpcCodeModel CpcStateModel CpcEstTables CpcEstModel.
Local Open Scope nat_scope.

Definition hip_bits (f : f64 * f64) : N * N := (float_bits (fst f), float_bits (snd f)).
Definition hip_from (p : N * N) : f64 * f64 := (float_from (fst p), float_from (snd p)).

(** utils.go:352-354 getFlags, 347-350 getFormatOrdinal, 133-135 hasHip, 324-326 getLgK; the index is in range after checkLoPreamble *)
Definition w_flags (mem : list N) : N := nth 5 mem 0%N.
Definition w_format (mem : list N) : nat := N.to_nat (N.land (N.shiftr (w_flags mem) 2) 7).
Definition w_has_hip (mem : list N) : bool := negb (N.land (w_flags mem) 4 =? 0)%N.
Definition w_lgK (mem : list N) : nat := N.to_nat (nth 3 mem 0%N).
(** utils.go:333-336 getHipAccum, 356-359 getNumCoupons: the error of getHiFieldOffset (463-469) is dropped, and the offset it comes with is 0 *)
Definition w_field (k field : nat) (mem : list N) : option N :=
  match hi_offset (w_format mem) field with
  | Ok o => get_le k o mem
  | Err => get_le k 0 mem
  | Panic => None
  end.
Definition w_coupons (mem : list N) : option Z := do n <- w_field 4 hf_numcoupons mem ; Some (Z.of_N n).
Definition w_hip (mem : list N) : option f64 := do n <- w_field 8 hf_hip mem ; Some (float_from n).

(** cpc_wrapper.go:34-42 NewCpcWrapperFromBytes *)
Definition new_wrapper (bytes : list N) : res (list N) :=
  let* _ := check_lo bytes in
  if (N.land (w_flags bytes) 2 =? 0)%N then Err else Ok bytes.

Section Wrap.
Variable flog : f64 -> f64.
Variable fpow : f64 -> f64 -> f64.
(** cpc_wrapper.go:47-52 GetEstimate *)
Definition w_estimate (mem : list N) : option f64 :=
  if w_has_hip mem then w_hip mem
  else do n <- w_coupons mem ; icon_estimate fpow (w_lgK mem) n.
(** cpc_wrapper.go:61-66 GetLowerBound *)
Definition w_lower (mem : list N) (kappa : Z) : option f64 :=
  if w_has_hip mem then do n <- w_coupons mem ; do h <- w_hip mem ; conf_lower flog false (w_lgK mem) n (Some h) kappa
  else do n <- w_coupons mem ; conf_lower flog true (w_lgK mem) n (icon_estimate fpow (w_lgK mem) n) kappa.
(** cpc_wrapper.go:70-75 GetUpperBound *)
Definition w_upper (mem : list N) (kappa : Z) : option f64 :=
  if w_has_hip mem then do n <- w_coupons mem ; do h <- w_hip mem ; conf_upper flog false (w_lgK mem) n (Some h) kappa
  else do n <- w_coupons mem ; conf_upper flog true (w_lgK mem) n (icon_estimate fpow (w_lgK mem) n) kappa.
End Wrap.
