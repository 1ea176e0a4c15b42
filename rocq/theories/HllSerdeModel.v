(** * Model of the HLL sketch's byte images: ToCompactSlice, ToUpdatableSlice, GetUpdatableSerializationBytes and NewHllSketchFromSlice
    (preamble_utils.go, to_slice_impl.go, and the deserialize functions).

    A byte slice is a list of [N] below 256. [Panic] is an index out of range, [Err] a returned error.
    [hip_bits] is math.Float64bits of the HIP accumulator and [hip_of] math.Float64frombits.
    kxq0 and kxq1 are float64 in the code and integers in units of 2^-31 and 2^-63 in HllModel.v; [kx_bits] and [kx_of] are
    Float64bits and Float64frombits for such numbers (exact for 0 .. 2^53). *)
From Verif Require Import Base Bytes Arr ProbeModel BitPackModel ItemSerdeModel HllModel.
Local Open Scope nat_scope.

(** math.Float64bits of k * 2^-u, for 0 <= k <= 2^53: biased exponent, then the fraction below the leading bit. *)
Definition kx_bits (u : Z) (k : Z) : N :=
  if (k <=? 0)%Z then 0%N
  else Z.to_N ((Z.log2 k + 1023 - u) * 2 ^ 52 + (k * 2 ^ 53 / 2 ^ (Z.log2 k + 1) - 2 ^ 52))%Z.
(** math.Float64frombits, in units of 2^-u; a value that is not a multiple of the unit is rounded down, a negative one is not read
    (neither is written by a sketch that was fed items). *)
Definition kx_of (u : Z) (b : N) : Z :=
  if (b =? 0)%N then 0%Z
  else let e := (Z.of_N b / 2 ^ 52 - 1023 + u)%Z in
       let m := (Z.of_N b mod 2 ^ 52 + 2 ^ 52)%Z in
       (m * 2 ^ (e + 1) / 2 ^ 53)%Z.

(** extractCurMode, extractTgtHllType (preamble_utils.go:104-111), the constants of utils.go:59-69. *)
Definition mode_num (n : N) : N := N.land n 3.
Definition tgt_code (t : tgt) : N := match t with T4 => 0 | T6 => 1 | T8 => 2 end.
(** Type code 3 has no type; in HLL mode the code treats it as HLL_8. *)
Definition tgt_of (n : N) : tgt := match n with 0%N => T4 | 1%N => T6 | _ => T8 end.

(** insertEmptyFlag, insertCompactFlag, insertOooFlag, insertRebuildCurMinNumKxQFlag (preamble_utils.go:220-228, 252-260, 230-238, 282-290). *)
Definition ins_flag (mask : N) (v : bool) (b : list N) : option (list N) :=
  do f <- nth_error b 5; wr 5 (if v then N.lor f mask else N.land f (255 - mask)) b.
(** insertCurMode, insertTgtHllType (preamble_utils.go:240-250). *)
Definition ins_mode (m : N) (b : list N) : option (list N) :=
  do x <- nth_error b 7; wr 7 (N.lor (N.land x (255 - 3)) (N.land m 3)) b.
Definition ins_tgt (t : N) (b : list N) : option (list N) :=
  do x <- nth_error b 7; wr 7 (N.lor (N.land x (255 - 12)) (N.land (N.shiftl t 2) 12)) b.
Definition flag (mask : N) (f : N) : bool := (0 <? N.land f mask)%N.

(** The non-empty cells, in the order of the iterator (pair_iterator.go:60-70 nextValid). *)
Definition used (arr : list N) : list N := filter (fun c => negb (c =? 0)%N) arr.

(** internal/utils.go:65-81 CeilPowerOf2, ExactLog2; preamble_utils.go:166-184 computeLgArr. Counts are below 2^30.
    The list branch is not reached by the callers. *)
Definition lg_ceil (n : N) : N := if (n <=? 1)%N then 0%N else (N.log2 (n - 1) + 1)%N.
Definition lg_for (n : N) : N := if (3 * 2 ^ lg_ceil n <? 4 * n)%N then (lg_ceil n + 1)%N else lg_ceil n.

Definition of_err {A} (o : option A) : res A := match o with Some a => Ok a | None => Err end.

Section HllSerde.
  Context {F : Type}.
  Variable hip_bits : F -> N.
  Variable hip_of : N -> F.
  Notation harr := (harr F).
  Notation hstate := (hstate F).

  (** ** Writing *)
  (** copyCommonListAndSet (to_slice_impl.go:96-106). A coupon state is never out of order (coupon.go:50-52). *)
  Definition put_common (pre lgK lgArr : N) (empty : bool) (mode : N) (t : tgt) (b : list N) : option (list N) :=
    do b <- wr 0 (N.land pre 63) b;
    do b <- wr 1 1%N b;
    do b <- wr 2 7%N b;
    do b <- wr 3 (lgK mod 256)%N b;
    do b <- wr 4 (lgArr mod 256)%N b;
    do b <- ins_flag 4 empty b;
    do b <- ins_flag 16 false b;
    do b <- ins_mode mode b;
    ins_tgt (tgt_code t) b.
  (** toCouponSlice (to_slice_impl.go:49-94). [isList]: LIST mode, else SET mode. *)
  Definition coupon_slice (isList : bool) (lgK : N) (t : tgt) (lgArr : N) (arr : list N) (cnt : nat) (compact : bool) : option (list N) :=
    let start := if isList then 8 else 12 in
    let pre := if isList then 2%N else 3%N in
    let put_count := fun b => if isList then wr 6 (N.of_nat cnt mod 256)%N b else put_le 4 8 (N.of_nat cnt) b in
    if compact then
      do b <- put_common pre lgK lgArr (cnt =? 0) (if isList then 0 else 1) t (repeat 0%N (start + 4 * cnt));
      do b <- ins_flag 8 true b;
      do b <- fixed_ser_loop 4 start (used arr) b;
      put_count b
    else
      do b <- put_common pre lgK lgArr (cnt =? 0) (if isList then 0 else 1) t (repeat 0%N (start + 4 * nslots lgArr));
      do b <- fixed_ser_loop 4 start arr b;
      put_count b.

  (** insertCommonHll (to_slice_impl.go:119-135). *)
  Definition put_common_hll (t : tgt) (h : harr) (compact : bool) (b : list N) : option (list N) :=
    do b <- wr 0 10%N b;
    do b <- wr 1 1%N b;
    do b <- wr 2 7%N b;
    do b <- wr 3 (a_lgK h mod 256)%N b;
    do b <- ins_flag 4 false b;
    do b <- ins_flag 8 compact b;
    do b <- ins_flag 16 (a_ooo h) b;
    do b <- wr 6 (a_curMin h mod 256)%N b;
    do b <- ins_mode 2 b;
    do b <- ins_tgt (tgt_code t) b;
    do b <- put_le 8 8 (hip_bits (a_hip h)) b;
    do b <- put_le 8 16 (kx_bits 31 (a_kxq0 h)) b;
    do b <- put_le 8 24 (kx_bits 63 (a_kxq1 h)) b;
    do b <- put_le 4 32 (N.of_nat (a_num h)) b;
    ins_flag 32 (a_rebuild h) b.
  (** auxStart (hll_4array.go:98): 40 + 2^(lgK-1). *)
  Definition aux_start (h : harr) : nat := 40 + nslots (a_lgK h - 1).
  (** insertAux (to_slice_impl.go:137-167). *)
  Definition put_aux (h : harr) (x : auxmap) (compact : bool) (b : list N) : res (list N) :=
    let* b := of_opt (put_le 4 36 (N.of_nat (x_cnt x)) b) in
    let* b := of_opt (wr 4 (x_lg x mod 256)%N b) in
    if compact then
      let* b := of_opt (fixed_ser_loop 4 (aux_start h) (used (x_arr x)) b) in
      if length (used (x_arr x)) =? x_cnt x then Ok b else Err
    else of_opt (do l <- sl_get 0 (nslots (x_lg x)) (x_arr x); fixed_ser_loop 4 (aux_start h) l b).
  (** The bytes set aside for the aux map (to_slice_impl.go:26-42). *)
  Definition aux_bytes (t : tgt) (h : harr) (compact : bool) : option nat :=
    match t with
    | T4 => match a_aux h with
            | Some x => Some (if compact then 4 * x_cnt x else 4 * nslots (x_lg x))
            | None => if compact then Some 0 else do l <- nth_error lg_aux_ints (N.to_nat (a_lgK h)); Some (4 * nslots l)
            end
    | _ => Some 0
    end.
  (** toHllByteArr, insertHll (to_slice_impl.go:25-47, 108-117). *)
  Definition hll_slice (t : tgt) (h : harr) (compact : bool) : res (list N) :=
    let* n := of_opt (aux_bytes t h compact) in
    let* b := of_opt (put_common_hll t h compact (repeat 0%N (40 + length (a_bytes h) + n))) in
    let* b := of_opt (put 40 (a_bytes h) b) in
    match a_aux h with
    | Some x => put_aux h x compact b
    | None => of_opt (put_le 4 36 0 b)
    end.
  (** ToCompactSlice, ToUpdatableSlice of the five states (coupon_list.go:54-60, coupon_hash_set.go:54-60, hll_4array.go:49-55,
      hll_6array.go:61-67, hll_8array.go:58-64). HLL_6 and HLL_8 have one form only. The array of a LIST has 8 cells. *)
  Definition to_slice (compact : bool) (s : hstate) : res (list N) :=
    match s with
    | HList lgK t arr cnt => of_opt (coupon_slice true lgK t 3 arr cnt compact)
    | HSet lgK t lgArr arr cnt => of_opt (coupon_slice false lgK t lgArr arr cnt compact)
    | HArr T4 h => hll_slice T4 h compact
    | HArr t h => hll_slice t h false
    end.
  (** GetUpdatableSerializationBytes (coupon_list.go:50-52, coupon_hash_set.go:50-52, hll_4array.go:57-66, hll_array.go:125-127). *)
  Definition updatable_bytes (s : hstate) : option nat :=
    match s with
    | HList _ _ _ _ => Some (8 + 4 * nslots 3)
    | HSet _ _ lgArr _ _ => Some (12 + 4 * nslots lgArr)
    | HArr t h => do n <- aux_bytes t h false; Some (40 + length (a_bytes h) + n)
    end.

  (** ** Reading *)
  (** checkPreamble (utils.go:145-181), after the length test of NewHllSketchFromSlice: the mode. Mode number 3 is read as SET
      with any of the three preamble lengths. *)
  Definition check_preamble (b : list N) : res N :=
    let* p := of_opt (nth_error b 0) in
    let pre := N.land p 63 in
    if length b <? 4 * N.to_nat pre then Err
    else
      let* ver := of_opt (nth_error b 1) in
      let* fam := of_opt (nth_error b 2) in
      let* m := of_opt (nth_error b 7) in
      let mode := N.land m 3 in
      if negb (fam =? 7)%N then Err
      else if negb (ver =? 1)%N then Err
      else if negb (pre =? 2)%N && negb (pre =? 3)%N && negb (pre =? 10)%N then Err
      else if (mode =? 0)%N && negb (pre =? 2)%N then Err
      else if (mode =? 1)%N && negb (pre =? 3)%N then Err
      else if (mode =? 2)%N && negb (pre =? 10)%N then Err
      else Ok mode.

  Definition rd_tgt (b : list N) : res tgt := let* m := of_opt (nth_error b 7) in Ok (tgt_of (N.shiftr (N.land m 12) 2)).

  (** deserializeCouponList (coupon_list.go:184-201). The list has 8 cells; a higher count is an index out of range. *)
  Fixpoint read_list (n i : nat) (b arr : list N) : option (list N) :=
    match n with
    | O => Some arr
    | S n' => do c <- get_le 4 (8 + 4 * i) b; do arr <- wr i c arr; read_list n' (S i) b arr
    end.
  Definition read_coupon_list (b : list N) : res hstate :=
    let* lgK := of_opt (nth_error b 3) in
    let* t := rd_tgt b in
    let* cnt := of_opt (nth_error b 6) in
    let* arr := of_opt (read_list (N.to_nat cnt) 0 b (repeat 0%N 8)) in
    Ok (HList lgK t arr (N.to_nat cnt)).

  (** coupon_hash_set.go:232-234: couponUpdate on each coupon; the state it returns is dropped. *)
  Fixpoint read_coupons (n off : nat) (b : list N) (lgK lgArr : N) (arr : list N) (cnt : nat) : res (N * list N * nat) :=
    match n with
    | O => Ok (lgArr, arr, cnt)
    | S n' =>
      let* c := of_opt (get_le 4 off b) in
      let* x := of_err (set_add lgK lgArr arr cnt c) in
      let '(lgArr, arr, cnt, _) := x in read_coupons n' (off + 4) b lgK lgArr arr cnt
    end.
  (** deserializeCouponHashSet (coupon_hash_set.go:209-248). lgArr of 62 or more, where Go's shift wraps, is modelled as Panic. *)
  Definition read_coupon_set (b : list N) : res hstate :=
    let* lgK := of_opt (nth_error b 3) in
    let* t := rd_tgt b in
    let* m := of_opt (nth_error b 7) in
    let start := if (N.land m 3 =? 1)%N then 12 else 8 in
    if (lgK <=? 7)%N then Err
    else
      let* f := of_opt (nth_error b 5) in
      let* cnt := of_opt (get_le 4 8 b) in
      let* lg := of_opt (nth_error b 4) in
      let lg := if (lg <? 5)%N then N.max 5 (lg_for cnt) else lg in
      if flag 8 f then
        let* x := read_coupons (N.to_nat cnt) start b lgK 5 (repeat 0%N 32) 0 in
        let '(lgArr, arr, n) := x in Ok (HSet lgK t lgArr arr n)
      else if (62 <=? lg)%N then Panic
      else let* cs := of_opt (fixed_deser 4 b 12 (nslots lg)) in Ok (HSet lgK t lg cs (N.to_nat cnt)).

  (** extractCommonHll (hll_array.go:311-321) on a new array (newHll4Array, newHll6Array, newHll8Array): the registers are the
      window b[40 : 40+n] of the caller's slice, not a copy of it. putOutOfOrder(true) zeroes hip, which is then read from the slice.
      An lgK of 0 makes newHll4Array shift by -1, which panics; an lgK of 62 or more is modelled as Panic (Go's shifts wrap). *)
  Definition read_common (t : tgt) (b : list N) : res harr :=
    let* lgK := of_opt (nth_error b 3) in
    if (62 <=? lgK)%N then Panic
    else if (lgK =? 0)%N && tgt_eqb t T4 then Panic
    else
      let* f := of_opt (nth_error b 5) in
      let* cm := of_opt (nth_error b 6) in
      let* hip := of_opt (get_le 8 8 b) in
      let* k0 := of_opt (get_le 8 16 b) in
      let* k1 := of_opt (get_le 8 24 b) in
      let* num := of_opt (get_le 4 32 b) in
      let n := match t with T4 => nslots (lgK - 1) | T6 => nslots lgK * 3 / 4 + 1 | T8 => nslots lgK end in
      let* bytes := of_opt (slice 40 n b) in
      Ok (mkArr lgK (flag 16 f) (flag 32 f) cm (N.to_nat num) (hip_of hip) (kx_of 31 k0) (kx_of 63 k1) bytes None).
  (** aux_hash_map.go:69-93: the two loops over the pairs; the updatable one skips empty cells. *)
  Fixpoint read_pairs (n off : nat) (b : list N) (skip : bool) (lgK : N) (x : auxmap) : res auxmap :=
    match n with
    | O => Ok x
    | S n' =>
      let* p := of_opt (get_le 4 off b) in
      if skip && (p =? 0)%N then read_pairs n' (off + 4) b skip lgK x
      else let* x := of_err (aux_add x lgK (N.to_nat (N.land (pair_low p) (2 ^ lgK - 1))) (pair_value p)) in
           read_pairs n' (off + 4) b skip lgK x
    end.
  (** deserializeAuxHashMap (aux_hash_map.go:51-95). *)
  Definition read_aux (b : list N) (start : nat) (lgK : N) (cnt : N) (compact : bool) : res auxmap :=
    if compact then
      let* l := of_opt (nth_error lg_aux_ints (N.to_nat lgK)) in
      read_pairs (N.to_nat cnt) start b false lgK (aux_new (N.max l (lg_for cnt)))
    else
      let* lg := of_opt (nth_error b 4) in
      if (62 <=? lg)%N then Panic else read_pairs (nslots lg) start b true lgK (aux_new lg).
  (** deserializeHll4, deserializeHll6, deserializeHll8 (hll_4array.go:104-122, hll_6array.go:86-91, hll_8array.go:83-88). *)
  Definition read_hll (t : tgt) (b : list N) : res harr :=
    let* h := read_common t b in
    match t with
    | T4 =>
      let* cnt := of_opt (get_le 4 36 b) in
      let* f := of_opt (nth_error b 5) in
      if (0 <? cnt)%N then let* x := read_aux b (aux_start h) (a_lgK h) cnt (flag 8 f) in Ok (set_aux h (Some x)) else Ok h
    | _ => Ok h
    end.
  (** NewHllSketchFromSlice (hll_sketch.go:181-222). *)
  Definition from_slice (b : list N) (checkRebuild : bool) : res hstate :=
    if length b <? 8 then Err
    else
      let* mode := check_preamble b in
      if (mode =? 2)%N then
        let* t := rd_tgt b in
        let* h := read_hll t b in
        if tgt_eqb t T8 && checkRebuild then of_err (rebuild (HArr t h)) else Ok (HArr t h)
      else if (mode =? 0)%N then read_coupon_list b
      else read_coupon_set b.
End HllSerde.
