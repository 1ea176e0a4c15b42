(** * From the typed Update methods to the hash: which key a value is.

    The update methods of the theta and tuple sketches (theta/update_sketch.go, tuple/update_sketch.go, with the
    Hash...AndScreen methods of the two hash tables, which are the same text), of the CPC sketch
    (cpc/cpc_sketch.go) and of the HLL sketch (hll/hll_sketch.go).

    A float64 or float32 is its IEEE bit pattern, an [N].  Comparing a float with 0.0 and math.IsNaN are the
    IEEE rules on the bits.  github.com/twmb/murmur3's SeedSum128(seed, seed, data), which is not in the
    repository, is taken to be the published hash.  The outer [None] is a panic, the inner one a value that
    is refused or ignored. *)
From Verif Require Import Base Bytes GoInt QuickSelectModel ProbeModel HashtableModel ThetaModel TupleModel BitPackModel CpcTable CpcModel HllModel Murmur3Model Murmur3Props.
Local Open Scope nat_scope.

(** The typed Update methods of theta and tuple sketches: update_sketch.go (theta) :255-:377, (tuple) :325-:483 *)
Inductive input :=
| XUint64 (v : N) | XInt64 (v : Z) | XUint32 (v : N) | XInt32 (v : Z) | XUint16 (v : N) | XInt16 (v : Z)
| XUint8 (v : N) | XInt8 (v : Z) | XFloat64 (bits : N) | XFloat32 (bits : N) | XString (s : list N) | XBytes (b : list N).

(** math.Float64bits views: value == 0.0 (either zero), and math.IsNaN *)
Definition f64_is_zero (bits : N) : bool := (N.land bits (2 ^ 63 - 1) =? 0)%N.
Definition f64_is_nan (bits : N) : bool := (0x7ff0000000000000 <? N.land bits (2 ^ 63 - 1))%N.

(** The conversion float64(x) of a float32 (IEEE, exact): sign bit 31, exponent bits 30-23, fraction bits 22-0.
    A NaN gives a NaN; the hardware's choice of its payload is not relevant because NaNs are made canonical. *)
Definition widen32 (b : N) : N :=
  let s := N.shiftr b 31 in
  let e := N.land (N.shiftr b 23) 255 in
  let m := N.land b (2 ^ 23 - 1) in
  let mag :=
    if (e =? 255)%N then (0x7ff0000000000000 + N.shiftl m 29)%N
    else if (e =? 0)%N then
      if (m =? 0)%N then 0%N
      else let p := N.log2 m in (N.shiftl (p + 874) 52 + N.shiftl (m - 2 ^ p) (52 - p))%N
    else (N.shiftl (e + 896) 52 + N.shiftl m 29)%N in
  (N.shiftl s 63 + mag)%N.

(** theta/update_sketch.go:336-343 canonicalDouble, tuple/update_sketch.go:432-439: int64(...) of the bits *)
Definition canonical_double (bits : N) : Z :=
  if f64_is_zero bits then wrap64 (Z.of_N 0)
  else if f64_is_nan bits then wrap64 (Z.of_N 0x7ff8000000000000)
  else wrap64 (Z.of_N bits).

(** theta/hashtable.go:105-157 (tuple/hashtable.go:108-160) Hash...AndScreen, the hash: h1 >> 1 *)
Definition half (h : option (N * N)) : option (option N) := do (h1, _) <- h; Some (Some (N.shiftr h1 1)).
Definition hash_string (seed : N) (s : list N) := half (hash_char_slice s 0 (length s) seed).
Definition hash_int32 (seed : N) (v : Z) := half (hash_int32_slice [v] 0 1 seed).
Definition hash_int64 (seed : N) (v : Z) := half (hash_int64_slice [v] 0 1 seed).
Definition hash_bytes (seed : N) (b : list N) := half (hash_byte_arr b 0 (length b) seed).

(** The hash each Update method presents: theta/update_sketch.go:255-393, tuple/update_sketch.go:325-500.
    [Some None] is ErrUpdateEmptyString. *)
Definition input_hash (seed : N) (x : input) : option (option N) :=
  match x with
  | XUint64 v => hash_int64 seed (wrap64 (Z.of_N v))
  | XInt64 v => hash_int64 seed v
  | XUint32 v => hash_int64 seed (Z.of_N v)
  | XInt32 v => hash_int32 seed v
  | XUint16 v => hash_int32 seed (Z.of_N v)
  | XInt16 v => hash_int32 seed v
  | XUint8 v => hash_int32 seed (Z.of_N v)
  | XInt8 v => hash_int32 seed v
  | XFloat64 bits => hash_int64 seed (canonical_double bits)
  | XFloat32 bits => hash_int64 seed (canonical_double (widen32 bits))
  | XString s => match s with [] => Some None | _ => hash_string seed s end
  | XBytes b => hash_bytes seed b
  end.

(** The update of a theta sketch with a typed value. *)
Definition theta_update_input (seed : N) (t : ttable) (x : input) : option (ttable * uerr) :=
  do oh <- input_hash seed x;
  match oh with None => Some (t, UErrEmptyString) | Some h => ThetaModel.update t h end.

(** The update of a tuple sketch with a typed key. *)
Definition tuple_update_input {S V} (s0 : S) (upf : S -> V -> S) (mk : S) (seed : N) (t : HashtableModel.table (N * S)%type) (x : input) (v : V)
  : option (HashtableModel.table (N * S)%type * uerr) :=
  do oh <- input_hash seed x;
  match oh with None => Some (t, UErrEmptyString) | Some h => tup_update s0 upf mk t h v end.

(** ** CPC *)

Inductive cpc_input :=
| CUint64 (v : N) | CInt64 (v : Z) | CFloat64 (bits : N) | CInt64Slice (l : list Z) | CInt32Slice (l : list Z)
| CByteSlice (b : list N) | CString (s : list N).

(** murmur3.SeedSum128(seed, seed, bs): cpc/cpc_sketch.go:334-336 hash, hll/hll_sketch.go:357-359 *)
Definition seed_sum128 (seed : N) (b : list N) : N * N := murmur3_x64_128 b seed.

(** cpc_sketch.go:152-169: the bits hashed for a float64 *)
Definition cpc_float_bits (bits : N) : N :=
  let b := if f64_is_zero bits then 0%N else bits in
  if (N.land b 0x7ff0000000000000 =? 0x7ff0000000000000)%N && negb (N.land b 0x000fffffffffffff =? 0)%N
  then 0x7ff8000000000000%N else b.

(** cpc_sketch.go:142-201 UpdateUint64 ... UpdateString: the pair handed to hashUpdate; [Some None]: ignored *)
Definition cpc_hash (seed : N) (x : cpc_input) : option (option (N * N)) :=
  match x with
  | CUint64 v => Some (Some (seed_sum128 seed (le 8 v)))
  | CInt64 v => Some (Some (seed_sum128 seed (le 8 (Murmur3Model.to_u64 v))))
  | CFloat64 bits => Some (Some (seed_sum128 seed (le 8 (cpc_float_bits bits))))
  | CInt64Slice l => match l with [] => Some None | _ => do h <- hash_int64_slice l 0 (length l) seed; Some (Some h) end
  | CInt32Slice l => match l with [] => Some None | _ => do h <- hash_int32_slice l 0 (length l) seed; Some (Some h) end
  | CByteSlice b => match b with [] => Some None | _ => Some (Some (seed_sum128 seed b)) end
  | CString s => match s with [] => Some None | _ => Some (Some (seed_sum128 seed s)) end
  end.

Definition cpc_update_input {F} (HO : hip_ops F) (s : cpc F) (x : cpc_input) : res (cpc F) :=
  match cpc_hash (c_seed s) x with
  | None => Panic
  | Some None => Ok s
  | Some (Some (h0, h1)) => hash_update F HO s h0 h1
  end.

(** ** HLL *)

Inductive hll_input := HUint64 (v : N) | HInt64 (v : Z) | HSlice (b : list N) | HString (s : list N).

(** hll_sketch.go:264-285 UpdateUInt64, UpdateInt64, UpdateSlice, UpdateString: the coupon handed to
    couponUpdate; None: ignored.  The seed is internal.DEFAULT_UPDATE_SEED (internal/utils.go:31-33). *)
Definition hll_hash (b : list N) : N * N := seed_sum128 9001 b.
Definition hll_coupon (x : hll_input) : option N :=
  let c b := let (lo, hi) := hll_hash b in coupon lo hi in
  match x with
  | HUint64 v => Some (c (le 8 v))
  | HInt64 v => Some (c (le 8 (Murmur3Model.to_u64 v)))
  | HSlice b => match b with [] => None | _ => Some (c b) end
  | HString s => match s with [] => None | _ => Some (c s) end
  end.
