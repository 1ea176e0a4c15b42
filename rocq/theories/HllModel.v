(** * Model of the hll package: coupons, LIST / SET / HLL modes, the three HLL array types, and the union.

    [F] is float64, used only for the HIP accumulator: [hip_add lgK kxq0 kxq1 h] is h + 2^lgK / (kxq0 + kxq1)
    (hll_array.go:263-272) and [coupon_est n] is getEstimate of n coupons (coupon.go:75-79; its interpolation error is not
    reachable for the counts of LIST and SET mode). The float64 registers kxq0 and kxq1 are modelled by integers: kxq0 in units
    of 2^-31, kxq1 in units of 2^-63. All values they take are integer multiples of these units and at most 2^52 units (K <= 2^21),
    so float64 addition and subtraction are exact; the exception is checkRebuildCurMinNumKxQ, see [rebuild].
    A Go int used as coupon or register is an [N], a slot number or a count is a [nat].
    [None] is a returned error or a panic; after it the sketch is not used any more in the model. *)
From Verif Require Import Base ProbeModel Bytes Arr.
Local Open Scope nat_scope.

(** utils.go:116-135 pair, getPairLow26, getPairValue. *)
Definition mk_pair (slot : nat) (v : N) : N := (v * 2 ^ 26 + N.of_nat slot mod 2 ^ 26)%N.
Definition pair_low (p : N) : N := (p mod 2 ^ 26)%N.
Definition pair_value (p : N) : N := (p / 2 ^ 26)%N.

(** hll_sketch.go:328-333 coupon(hashLo, hashHi). bits.LeadingZeros64 is 64 - N.size. *)
Definition coupon (lo hi : N) : N := ((N.min (64 - N.size hi) 62 + 1) * 2 ^ 26 + lo mod 2 ^ 26)%N.

(** utils.go:99-105 lgAuxArrInts. *)
Definition lg_aux_ints : list N := [0; 2; 2; 2; 2; 2; 2; 3; 3; 3; 4; 4; 5; 5; 6; 7; 8; 9; 10; 11; 12; 13; 14; 15; 16; 17; 18]%N.

(** ** The auxiliary map of HLL_4 (aux_hash_map.go) *)
Record auxmap := mkAux { x_lg : N; x_cnt : nat; x_arr : list N }.

(** aux_hash_map.go:41-48 newAuxHashMap. *)
Definition aux_new (lg : N) : auxmap := mkAux lg 0 (repeat 0%N (N.to_nat (2 ^ lg))).

Definition aux_test (lgK slot : N) (a : N) : ptest :=
  if (a =? 0)%N then TEmpty else if (slot =? N.land a (2 ^ lgK - 1))%N then TMatch else TOther.

(** aux_hash_map.go:197-218 findAuxHashMap. Some (inl i): found at i; Some (inr i): free at i. *)
Definition find_aux (arr : list N) (lg lgK slot : N) : option (nat + nat) :=
  if (lgK <=? lg)%N then None
  else match probe_loop (N.to_nat (2 ^ lg)) arr (aux_test lgK slot) (2 ^ lg - 1) (N.lor (N.shiftr slot lg) 1)
               (N.land slot (2 ^ lg - 1)) (N.land slot (2 ^ lg - 1)) with
       | PFound i => Some (inl i) | PEmpty i => Some (inr i) | _ => None end.

(** aux_hash_map.go:109-118 mustFindValueFor. *)
Definition aux_find (x : auxmap) (lgK : N) (slot : nat) : option N :=
  do r <- find_aux (x_arr x) (x_lg x) lgK (N.of_nat slot);
  match r with inl i => do p <- nth_error (x_arr x) i; Some (pair_value p) | inr _ => None end.

(** aux_hash_map.go:120-131 mustReplace. *)
Definition aux_replace (x : auxmap) (lgK : N) (slot : nat) (v : N) : option auxmap :=
  do r <- find_aux (x_arr x) (x_lg x) lgK (N.of_nat slot);
  match r with inl i => Some (mkAux (x_lg x) (x_cnt x) (upd i (mk_pair slot v) (x_arr x))) | inr _ => None end.

(** aux_hash_map.go:174-190 growAuxSpace: the reinsertion loop. *)
Fixpoint aux_reinsert (old arr : list N) (lg lgK : N) : option (list N) :=
  match old with
  | [] => Some arr
  | p :: r =>
    if (p =? 0)%N then aux_reinsert r arr lg lgK
    else do f <- find_aux arr lg lgK (N.land p (2 ^ lgK - 1));
         match f with inr i => aux_reinsert r (upd i p arr) lg lgK | inl _ => None end
  end.

(** aux_hash_map.go:136-149 mustAdd with :166-171 checkGrow. *)
Definition aux_add (x : auxmap) (lgK : N) (slot : nat) (v : N) : option auxmap :=
  do r <- find_aux (x_arr x) (x_lg x) lgK (N.of_nat slot);
  match r with
  | inl _ => None
  | inr i =>
    let arr := upd i (mk_pair slot v) (x_arr x) in
    let cnt := x_cnt x + 1 in
    if 4 * cnt <=? 3 * length arr then Some (mkAux (x_lg x) cnt arr)
    else let lg := (x_lg x + 1)%N in
         do arr' <- aux_reinsert arr (repeat 0%N (N.to_nat (2 ^ lg))) lg lgK; Some (mkAux lg cnt arr')
  end.

(** ** Packed arrays *)
(** hll_array.go:221-228 getNibble. *)
Definition get_nibble (b : list N) (slot : nat) : option N :=
  do x <- nth_error b (slot / 2);
  Some (N.land (if Nat.odd slot then N.shiftr x 4 else x) 15).
(** hll_array.go:231-239 putNibble. *)
Definition put_nibble (b : list N) (slot : nat) (v : N) : option (list N) :=
  do x <- nth_error b (slot / 2);
  wr (slot / 2) (if Nat.odd slot then N.lor (N.land x 15) (N.land (N.shiftl v 4) 240)
                 else N.lor (N.land x 240) (N.land v 15)) b.
(** internal/utils.go:45-54 GetShortLE, PutShortLE. *)
Definition get_short (b : list N) (off : nat) : option N :=
  do x <- nth_error b off; do y <- nth_error b (off + 1); Some (N.lor x (N.shiftl y 8)).
Definition put_short (b : list N) (off : nat) (v : N) : option (list N) :=
  do b <- wr off (v mod 256)%N b; wr (off + 1) (N.shiftr v 8 mod 256)%N b.
(** hll_6array.go:122-137 get6Bit, put6Bit with offsetBytes 0. ^(63 << shift) clears bits of an int; the value has 16 bits. *)
Definition get6 (b : list N) (slot : nat) : option N :=
  do w <- get_short b (slot * 6 / 8); Some (N.land (N.shiftr w (N.of_nat (slot * 6 mod 8))) 63).
Definition put6 (b : list N) (slot : nat) (v : N) : option (list N) :=
  let sh := N.of_nat (slot * 6 mod 8) in
  do w <- get_short b (slot * 6 / 8);
  put_short b (slot * 6 / 8) (N.lor (N.ldiff w (N.shiftl 63 sh)) (N.shiftl (N.land v 63) sh)).

(** ** HLL arrays *)
Inductive tgt := T4 | T6 | T8.

Section Hll.
  Context {F : Type}.
  Variable fzero : F.
  Variable hip_add : N -> Z -> Z -> F -> F.
  Variable coupon_est : nat -> F.

  (** hll_array.go:48-66 hllArrayImpl (hllByteArr: [a_bytes]; numAtCurMin: [a_num]). *)
  Record harr := mkArr {
    a_lgK : N; a_ooo : bool; a_rebuild : bool; a_curMin : N; a_num : nat; a_hip : F; a_kxq0 : Z; a_kxq1 : Z;
    a_bytes : list N; a_aux : option auxmap }.

  Definition nslots (lgK : N) : nat := N.to_nat (2 ^ lgK).

  (** newHll4Array (hll_4array.go:88-101), newHll6Array (hll_6array.go:70-83), newHll8Array (hll_8array.go:67-80). *)
  Definition arr_new (lgK : N) (t : tgt) : harr :=
    mkArr lgK false false 0 (nslots lgK) fzero (Z.of_N (2 ^ lgK) * 2 ^ 31) 0
      (repeat 0%N (match t with T4 => nslots (lgK - 1) | T6 => nslots lgK * 3 / 4 + 1 | T8 => nslots lgK end)) None.

  Definition set_bytes (h : harr) (b : list N) : harr :=
    mkArr (a_lgK h) (a_ooo h) (a_rebuild h) (a_curMin h) (a_num h) (a_hip h) (a_kxq0 h) (a_kxq1 h) b (a_aux h).
  Definition set_aux (h : harr) (x : option auxmap) : harr :=
    mkArr (a_lgK h) (a_ooo h) (a_rebuild h) (a_curMin h) (a_num h) (a_hip h) (a_kxq0 h) (a_kxq1 h) (a_bytes h) x.
  Definition set_num (h : harr) (n : nat) : harr :=
    mkArr (a_lgK h) (a_ooo h) (a_rebuild h) (a_curMin h) n (a_hip h) (a_kxq0 h) (a_kxq1 h) (a_bytes h) (a_aux h).
  Definition set_min (h : harr) (c : N) : harr :=
    mkArr (a_lgK h) (a_ooo h) (a_rebuild h) c (a_num h) (a_hip h) (a_kxq0 h) (a_kxq1 h) (a_bytes h) (a_aux h).
  Definition set_est (h : harr) (hip : F) (k0 k1 : Z) : harr :=
    mkArr (a_lgK h) (a_ooo h) (a_rebuild h) (a_curMin h) (a_num h) hip k0 k1 (a_bytes h) (a_aux h).
  Definition set_rebuild (h : harr) (r : bool) : harr :=
    mkArr (a_lgK h) (a_ooo h) r (a_curMin h) (a_num h) (a_hip h) (a_kxq0 h) (a_kxq1 h) (a_bytes h) (a_aux h).
  (** hll_array.go:169-174 putOutOfOrder. *)
  Definition set_ooo (h : harr) (o : bool) : harr :=
    mkArr (a_lgK h) o (a_rebuild h) (a_curMin h) (a_num h) (if o then fzero else a_hip h) (a_kxq0 h) (a_kxq1 h) (a_bytes h) (a_aux h).

  (** hll_array.go:275-308 incrementalUpdateKxQ: InvPow2(v) goes to kxq0 below 32, else to kxq1. *)
  Definition inv0 (v : N) : Z := if (v <? 32)%N then 2 ^ (31 - Z.of_N v) else 0.
  Definition inv1 (v : N) : Z := if (v <? 32)%N then 0 else 2 ^ (63 - Z.of_N v).
  (** hll_array.go:263-272 hipAndKxQIncrementalUpdate. *)
  Definition hip_kxq (h : harr) (old new : N) : option harr :=
    if (new <=? old)%N then None
    else Some (set_est h (hip_add (a_lgK h) (a_kxq0 h) (a_kxq1 h) (a_hip h))
                 (a_kxq0 h - inv0 old + inv0 new)%Z (a_kxq1 h - inv1 old + inv1 new)%Z).

  (** hll_8array.go:126-142 updateSlotWithKxQ; getSlotValue :149-151. *)
  Definition get8 (b : list N) (slot : nat) : option N := do x <- nth_error b slot; Some (N.land x 63).
  Definition dec_zeros (h : harr) (old : N) : option harr :=
    if (old =? 0)%N then (if a_num h =? 0 then None else Some (set_num h (a_num h - 1))) else Some h.
  Definition update8 (h : harr) (slot : nat) (v : N) : option harr :=
    do old <- get8 (a_bytes h) slot;
    if (old <? v)%N then
      do h <- hip_kxq (set_bytes h (upd slot (N.land v 63) (a_bytes h))) old v; dec_zeros h old
    else Some h.
  (** hll_6array.go:100-116 updateSlotWithKxQ. *)
  Definition update6 (h : harr) (slot : nat) (v : N) : option harr :=
    do old <- get6 (a_bytes h) slot;
    if (old <? v)%N then
      do b <- put6 (a_bytes h) slot v;
      do h <- hip_kxq (set_bytes h b) old v; dec_zeros h old
    else Some h.

  (** hll_4array.go:29-37 getSlotValue. *)
  Definition get4 (h : harr) (slot : nat) : option N :=
    do nib <- get_nibble (a_bytes h) slot;
    if (nib =? 15)%N then do x <- a_aux h; aux_find x (a_lgK h) slot else Some (nib + a_curMin h)%N.

  (** hll_array.go:207-209 getNewAuxHashMap. *)
  Definition new_aux (lgK : N) : option auxmap := do l <- nth_error lg_aux_ints (N.to_nat lgK); Some (aux_new l).

  (** hll_4update.go:149-171: the walk over the nibbles. Returns (bytes, numAtNewCurMin, numAuxTokens). *)
  Fixpoint shift_walk (n i : nat) (b : list N) (hasAux : bool) (atMin toks : nat) : option (list N * nat * nat) :=
    match n with
    | O => Some (b, atMin, toks)
    | S n' =>
      do nib <- get_nibble b i;
      if (nib =? 0)%N then None
      else if (nib <? 15)%N then
        do b <- put_nibble b i (nib - 1)%N;
        shift_walk n' (S i) b hasAux (if (nib - 1 =? 0)%N then atMin + 1 else atMin) toks
      else if hasAux then shift_walk n' (S i) b hasAux atMin (toks + 1) else None
    end.
  (** hll_4update.go:187-217: the walk over the old aux map. Returns (bytes, new aux map, numAuxTokens). *)
  Fixpoint shift_aux (l : list N) (lgK newMin : N) (b : list N) (nx : option auxmap) (toks : nat) : option (list N * option auxmap * nat) :=
    match l with
    | [] => Some (b, nx, toks)
    | p :: r =>
      if (p =? 0)%N then shift_aux r lgK newMin b nx toks
      else
        let slot := N.to_nat (N.land (pair_low p) (2 ^ lgK - 1)) in
        let v := pair_value p in
        if (v <? newMin)%N then None
        else
          do nib <- get_nibble b slot;
          if negb (nib =? 15)%N then None
          else if (v - newMin <? 15)%N then
            if negb (v - newMin =? 14)%N then None
            else do b <- put_nibble b slot (v - newMin)%N; do toks <- sub toks 1; shift_aux r lgK newMin b nx toks
          else
            do x <- (match nx with Some x => Some x | None => new_aux lgK end);
            do x <- aux_add x lgK slot v;
            shift_aux r lgK newMin b (Some x) toks
    end.
  (** hll_4update.go:128-225 shiftToBiggerCurMin. *)
  Definition shift_min (h : harr) : option harr :=
    let newMin := (a_curMin h + 1)%N in
    do r <- shift_walk (nslots (a_lgK h)) 0 (a_bytes h) (match a_aux h with Some _ => true | None => false end) 0 0;
    let '(b, atMin, toks) := r in
    do r <- (match a_aux h with
             | Some x => shift_aux (x_arr x) (a_lgK h) newMin b None toks
             | None => if toks =? 0 then Some (b, None, toks) else None
             end);
    let '(b, nx, toks) := r in
    if (match nx with Some x => x_cnt x =? toks | None => true end)
    then Some (set_num (set_min (set_aux (set_bytes h b) nx) newMin) atMin) else None.

  (** hll_4update.go:109-117: for h.numAtCurMin == 0. Registers are below 64, so 64 rounds suffice (proved). *)
  Fixpoint shift_loop (fuel : nat) (h : harr) : option harr :=
    if a_num h =? 0 then match fuel with O => None | S f => do h <- shift_min h; shift_loop f h end else Some h.

  (** hll_4update.go:102-118: the end of internalHll4Update. *)
  Definition finish4 (h : harr) (old curMin : N) : option harr :=
    if (old =? curMin)%N then (if a_num h <? 1 then None else shift_loop 64 (set_num h (a_num h - 1))) else Some h.

  (** hll_4update.go:25-120 internalHll4Update. *)
  Definition update4 (h : harr) (slot : nat) (v : N) : option harr :=
    do nib <- get_nibble (a_bytes h) slot;
    let curMin := a_curMin h in
    let lb := (nib + curMin)%N in
    if (v <=? lb)%N then Some h
    else if (nib =? 15)%N then
      do x <- a_aux h;
      do old <- aux_find x (a_lgK h) slot;
      if (v <=? old)%N then Some h
      else
        do h <- hip_kxq h old v;
        if (v <? curMin)%N then None
        else
          do h <- (if (15 <=? v - curMin)%N then do x <- aux_replace x (a_lgK h) slot v; Some (set_aux h (Some x)) else Some h);
          finish4 h old curMin
    else
      do h <- hip_kxq h lb v;
      if (v <? curMin)%N then None
      else
        do h <- (if (15 <=? v - curMin)%N then
                   do b <- put_nibble (a_bytes h) slot 15;
                   do x <- (match a_aux h with Some x => Some x | None => new_aux (a_lgK h) end);
                   do x <- aux_add x (a_lgK h) slot v;
                   Some (set_aux (set_bytes h b) (Some x))
                 else do b <- put_nibble (a_bytes h) slot (v - curMin)%N; Some (set_bytes h b));
        finish4 h lb curMin.

  (** couponUpdate of the three arrays (hll_4array.go:173-178, hll_6array.go:93-98, hll_8array.go:119-124). *)
  Definition arr_update (t : tgt) (h : harr) (c : N) : option harr :=
    let v := N.shiftr c 26 in
    let slot := N.to_nat (N.land c (2 ^ a_lgK h - 1)) in
    match t with T4 => update4 h slot v | T6 => update6 h slot v | T8 => update8 h slot v end.
  Fixpoint arr_update_all (t : tgt) (h : harr) (cs : list N) : option harr :=
    match cs with [] => Some h | c :: r => do h <- arr_update t h c; arr_update_all t h r end.

  (** getSlotValue / the iterators' getValue. *)
  Definition slot_value (t : tgt) (h : harr) (slot : nat) : option N :=
    match t with T4 => get4 h slot | T6 => get6 (a_bytes h) slot | T8 => get8 (a_bytes h) slot end.

  (** ** Coupon list and set *)
  Inductive hstate :=
  | HList (lgK : N) (t : tgt) (arr : list N) (cnt : nat)
  | HSet (lgK : N) (t : tgt) (lgArr : N) (arr : list N) (cnt : nat)
  | HArr (t : tgt) (h : harr).

  (** coupon_hash_set.go:176-193 findCoupon (arrMask = len(array) - 1). *)
  Definition coupon_test (c a : N) : ptest := if (a =? 0)%N then TEmpty else if (c =? a)%N then TMatch else TOther.
  Definition find_coupon (arr : list N) (lgArr c : N) : option (nat + nat) :=
    let mask := N.of_nat (length arr - 1) in
    match probe_loop (S (length arr)) arr (coupon_test c) mask (N.lor (N.shiftr (N.land c (2 ^ 26 - 1)) lgArr) 1)
            (N.land c mask) (N.land c mask) with
    | PFound i => Some (inl i) | PEmpty i => Some (inr i) | _ => None end.

  (** coupon_hash_set.go:128-144 growHashSet. *)
  Fixpoint grow_set (old arr : list N) (lgArr : N) : option (list N) :=
    match old with
    | [] => Some arr
    | c :: r => if (c =? 0)%N then grow_set r arr lgArr
                else do f <- find_coupon arr lgArr c;
                     match f with inr i => grow_set r (upd i c arr) lgArr | inl _ => None end
    end.

  (** coupon_hash_set.go:63-80 couponUpdate and :114-125 checkGrowOrPromote. The boolean: promote to HLL. *)
  Definition set_add (lgK lgArr : N) (arr : list N) (cnt : nat) (c : N) : option (N * list N * nat * bool) :=
    do f <- find_coupon arr lgArr c;
    match f with
    | inl _ => Some (lgArr, arr, cnt, false)
    | inr i =>
      let arr := upd i c arr in
      let cnt := cnt + 1 in
      if 4 * cnt <=? 3 * nslots lgArr then Some (lgArr, arr, cnt, false)
      else if (lgArr =? lgK - 3)%N then Some (lgArr, arr, cnt, true)
      else do arr' <- grow_set arr (repeat 0%N (nslots (lgArr + 1))) (lgArr + 1)%N; Some ((lgArr + 1)%N, arr', cnt, false)
    end.

  (** promoteListToHll (coupon_list.go:120-142), promoteSetToHll (coupon_hash_set.go:147-169). *)
  Definition promote_hll (lgK : N) (t : tgt) (arr : list N) (cnt : nat) : option hstate :=
    let h := arr_new lgK t in
    let h := set_est h (a_hip h) (Z.of_N (2 ^ lgK) * 2 ^ 31) (a_kxq1 h) in
    do h <- arr_update_all t h (filter (fun c => negb (c =? 0)%N) arr);
    Some (HArr t (set_ooo (set_est h (coupon_est cnt) (a_kxq0 h) (a_kxq1 h)) false)).

  (** promoteListToSet (coupon_list.go:145-160): the first couponCount coupons; the state couponUpdate returns is dropped. *)
  Fixpoint list_to_set (lgK : N) (cs : list N) (lgArr : N) (arr : list N) (cnt : nat) : option (N * list N * nat) :=
    match cs with
    | [] => Some (lgArr, arr, cnt)
    | c :: r => do x <- set_add lgK lgArr arr cnt c; let '(lgArr, arr, cnt, _) := x in list_to_set lgK r lgArr arr cnt
    end.
  Definition promote_set (lgK : N) (t : tgt) (arr : list N) (cnt : nat) : option hstate :=
    if (lgK <=? 7)%N then None
    else do x <- list_to_set lgK (firstn cnt arr) 5 (repeat 0%N 32) 0; let '(lgArr, arr, cnt) := x in Some (HSet lgK t lgArr arr cnt).

  (** coupon_list.go:64-86 couponUpdate: the loop. inl i: first empty cell; inr tt: duplicate. *)
  Fixpoint list_find (n i : nat) (arr : list N) (c : N) : option (nat + unit) :=
    match n with
    | O => None
    | S n' => do a <- nth_error arr i;
              if (a =? 0)%N then Some (inl i) else if (a =? c)%N then Some (inr tt) else list_find n' (S i) arr c
    end.
  Definition list_add (lgK : N) (t : tgt) (arr : list N) (cnt : nat) (c : N) : option hstate :=
    do f <- list_find 8 0 arr c;
    match f with
    | inr _ => Some (HList lgK t arr cnt)
    | inl i =>
      let arr := upd i c arr in
      let cnt := cnt + 1 in
      if 8 <=? cnt then (if (lgK <? 8)%N then promote_hll lgK t arr cnt else promote_set lgK t arr cnt)
      else Some (HList lgK t arr cnt)
    end.

  (** couponUpdate of the state interface. *)
  Definition st_update (s : hstate) (c : N) : option hstate :=
    match s with
    | HList lgK t arr cnt => list_add lgK t arr cnt c
    | HSet lgK t lgArr arr cnt =>
      do x <- set_add lgK lgArr arr cnt c;
      let '(lgArr, arr, cnt, p) := x in if p : bool then promote_hll lgK t arr cnt else Some (HSet lgK t lgArr arr cnt)
    | HArr t h => do h <- arr_update t h c; Some (HArr t h)
    end.

  (** ** The sketch *)
  (** NewHllSketch (hll_sketch.go:160-171) after checkLgK. *)
  Definition sk_new (lgK : N) (t : tgt) : option hstate :=
    if (4 <=? lgK)%N && (lgK <=? 21)%N then Some (HList lgK t (repeat 0%N 8) 0) else None.
  (** hll_sketch.go:335-342 couponUpdate. *)
  Definition sk_update (s : hstate) (c : N) : option hstate :=
    if (N.shiftr c 26 =? 0)%N then Some s else st_update s c.
  Fixpoint sk_update_all (s : hstate) (cs : list N) : option hstate :=
    match cs with [] => Some s | c :: r => do s <- sk_update s c; sk_update_all s r end.

  Definition st_lgK (s : hstate) : N := match s with HList lgK _ _ _ | HSet lgK _ _ _ _ => lgK | HArr _ h => a_lgK h end.
  Definition st_tgt (s : hstate) : tgt := match s with HList _ t _ _ | HSet _ t _ _ _ | HArr t _ => t end.
  (** coupon.go:34-36, hll_array.go:85-87 IsEmpty. *)
  Definition st_empty (s : hstate) : bool := match s with HList _ _ _ cnt | HSet _ _ _ _ cnt => cnt =? 0 | HArr _ _ => false end.
  (** Reset (hll_sketch.go:311-322). *)
  Definition sk_reset (s : hstate) : option hstate := sk_new (st_lgK s) (st_tgt s).

  (** ** Conversions *)
  Definition tgt_eqb (a b : tgt) : bool := match a, b with T4, T4 | T6, T6 | T8, T8 => true | _, _ => false end.

  (** convertToHll6 (hll_6array.go:139-166), convertToHll8 (hll_8array.go:90-117): the loop over all slots. *)
  Fixpoint convert_loop (n i : nat) (src : tgt) (h : harr) (t : tgt) (d : harr) (zeros : nat) : option (harr * nat) :=
    match n with
    | O => Some (d, zeros)
    | S n' =>
      do v <- slot_value src h i;
      if (v =? 0)%N then convert_loop n' (S i) src h t d zeros
      else do d <- arr_update t d (mk_pair i v); convert_loop n' (S i) src h t d (zeros - 1)
    end.
  Definition convert_68 (src : tgt) (h : harr) (t : tgt) : option harr :=
    do r <- convert_loop (nslots (a_lgK h)) 0 src h t (set_ooo (arr_new (a_lgK h) t) (a_ooo h)) (nslots (a_lgK h));
    let '(d, zeros) := r in
    Some (set_rebuild (set_est (set_num d zeros) (a_hip h) (a_kxq0 d) (a_kxq1 d)) false).

  (** hll_4array.go:180-200 curMinAndNum. *)
  Fixpoint min_and_num (n i : nat) (src : tgt) (h : harr) (m : N) (num : nat) : option (N * nat) :=
    match n with
    | O => Some (m, num)
    | S n' =>
      do v <- slot_value src h i;
      if (m <? v)%N then min_and_num n' (S i) src h m num
      else if (v <? m)%N then min_and_num n' (S i) src h v 1
      else min_and_num n' (S i) src h m (num + 1)
    end.
  (** hll_4array.go:138-165: the second pass (nextValid: slots with a non-zero value). *)
  Fixpoint convert4_loop (n i : nat) (src : tgt) (h : harr) (m : N) (d : harr) : option harr :=
    match n with
    | O => Some d
    | S n' =>
      do v <- slot_value src h i;
      if (v =? 0)%N then convert4_loop n' (S i) src h m d
      else
        do d <- hip_kxq d 0 v;
        do d <- (if (m + 15 <=? v)%N then
                   do b <- put_nibble (a_bytes d) i 15;
                   do x <- (match a_aux d with Some x => Some x | None => new_aux (a_lgK d) end);
                   do x <- aux_add x (a_lgK d) i v;
                   Some (set_aux (set_bytes d b) (Some x))
                 else do b <- put_nibble (a_bytes d) i (v - m)%N; Some (set_bytes d b));
        convert4_loop n' (S i) src h m d
    end.
  (** convertToHll4 (hll_4array.go:124-170). The pair (numAtCurMin, curMin) is packed into an int and unpacked: K < 2^26. *)
  Definition convert_4 (src : tgt) (h : harr) : option harr :=
    do r <- min_and_num (nslots (a_lgK h)) 0 src h 64 0;
    let '(m, num) := r in
    do d <- convert4_loop (nslots (a_lgK h)) 0 src h m (set_ooo (arr_new (a_lgK h) T4) (a_ooo h));
    Some (set_rebuild (set_est (set_num (set_min d m) num) (a_hip h) (a_kxq0 d) (a_kxq1 d)) false).

  (** CopyAs (copyAs of the five state types). A copy of the same type is a deep copy. *)
  Definition copy_as (s : hstate) (t : tgt) : option hstate :=
    match s with
    | HList lgK _ arr cnt => Some (HList lgK t arr cnt)
    | HSet lgK _ lgArr arr cnt => Some (HSet lgK t lgArr arr cnt)
    | HArr src h =>
      if tgt_eqb src t then Some s
      else match t with T4 => do d <- convert_4 src h; Some (HArr T4 d) | _ => do d <- convert_68 src h t; Some (HArr t d) end
    end.

  (** ** Union *)
  Record hunion := mkUn { u_max : N; u_gadget : hstate }.
  (** NewUnion (union.go:99-108). *)
  Definition un_new (lgMaxK : N) : option hunion := do g <- sk_new lgMaxK T8; Some (mkUn lgMaxK g).

  (** mergeCouponTo (coupon.go:103-119): all non-empty cells. *)
  Fixpoint merge_coupons (l : list N) (s : hstate) : option hstate :=
    match l with [] => Some s | c :: r => if (c =? 0)%N then merge_coupons r s else do s <- st_update s c; merge_coupons r s end.
  Definition coupon_cells (s : hstate) : option (list N) :=
    match s with HList _ _ arr _ | HSet _ _ _ arr _ => Some arr | HArr _ _ => None end.

  (** updateSlotNoKxQ (hll_8array.go:144-147). *)
  Definition update_nokxq (b : list N) (slot : nat) (v : N) : option (list N) :=
    do old <- get8 b slot; wr slot (N.max v old mod 256)%N b.

  (** union.go:372-381: raw byte maxima. The bound check on tgtArr comes first. *)
  Fixpoint max_bytes (src tgt : list N) : option (list N) :=
    match src, tgt with
    | [], _ => Some tgt
    | _ :: _, [] => None
    | s :: src', t :: tgt' => do r <- max_bytes src' tgt'; Some ((if (t <? s)%N then s else t) :: r)
    end.
  (** union.go:386-417: HLL_4 source, one byte (two slots) per round. *)
  Definition merge_nib (h : harr) (nib : N) (j : nat) (b : list N) : option (list N) :=
    if (nib =? 15)%N then do x <- a_aux h; do v <- aux_find x (a_lgK h) j; update_nokxq b j v
    else update_nokxq b j (nib + a_curMin h)%N.
  Fixpoint merge4_loop (n i : nat) (h : harr) (b : list N) : option (list N) :=
    match n with
    | O => Some b
    | S n' =>
      do x <- nth_error (a_bytes h) i;
      do b <- merge_nib h (N.land x 15) (2 * i) b;
      do b <- merge_nib h (N.shiftr x 4) (2 * i + 1) b;
      merge4_loop n' (S i) h b
    end.
  (** union.go:418-446: HLL_6 source, three bytes (four slots) per round. *)
  Fixpoint merge6_loop (n i : nat) (h : harr) (b : list N) : option (list N) :=
    match n with
    | O => Some b
    | S n' =>
      do b1 <- nth_error (a_bytes h) (3 * i);
      do b2 <- nth_error (a_bytes h) (3 * i + 1);
      do b3 <- nth_error (a_bytes h) (3 * i + 2);
      do b <- update_nokxq b (4 * i) (N.land b1 63);
      do b <- update_nokxq b (4 * i + 1) (N.lor (N.shiftr b1 6) (N.shiftl (N.land b2 15) 2));
      do b <- update_nokxq b (4 * i + 2) (N.lor (N.shiftr b2 4) (N.shiftl (N.land b3 3) 4));
      do b <- update_nokxq b (4 * i + 3) (N.shiftr b3 2);
      merge6_loop n' (S i) h b
    end.
  (** mergeHlltoHLLmode (union.go:365-455); the target is HLL_8. *)
  Definition merge_hll (src : tgt) (h g : harr) : option harr :=
    if (a_lgK g <? a_lgK h)%N then None
    else
      do b <- (match src with
               | T8 => max_bytes (a_bytes h) (a_bytes g)
               | T4 => merge4_loop (nslots (a_lgK h) / 2) 0 h (a_bytes g)
               | T6 => merge6_loop (nslots (a_lgK h) / 4) 0 h (a_bytes g)
               end);
      Some (set_rebuild (set_bytes g b) true).

  (** UpdateSketch / unionImpl (union.go:151-158, 200-308). bit3 is never set. *)
  Definition un_sketch (u : hunion) (src : hstate) : option hunion :=
    let g := u_gadget u in
    if negb (tgt_eqb (st_tgt g) T8) then None
    else if st_empty src then Some u
    else
      do g' <- (match src with
        | HList _ _ arr _ => merge_coupons arr g
        | HSet lgK _ _ arr _ =>
          if st_empty g && (lgK =? st_lgK g)%N then copy_as src T8 else merge_coupons arr g
        | HArr t h =>
          let big := (u_max u <? a_lgK h)%N in
          if st_empty g then (if big then None else copy_as src T8)
          else match g with
               | HArr _ gh => do gh <- merge_hll t h gh; Some (HArr T8 (set_ooo gh true))
               | HList _ _ arr _ | HSet _ _ _ arr _ => if big then None else do s8 <- copy_as src T8; merge_coupons arr s8
               end
        end);
      Some (mkUn (u_max u) g').

  (** The items updates (union.go:135-149): the gadget's couponUpdate. *)
  Definition un_coupon (u : hunion) (c : N) : option hunion := do g <- sk_update (u_gadget u) c; Some (mkUn (u_max u) g).

  (** checkRebuildCurMinNumKxQ (union.go:310-363) on an HLL_8 array. In float64 the kxq1 sum is rounded when registers
      are above 31 (m registers near v need m * 2^v <= 2^53 to be exact); here it is exact. HllEstModel.rebuild_kxq has the float64 sums. *)
  Fixpoint rebuild_loop (n i : nat) (h : harr) (m : N) (num : nat) (k0 k1 : Z) : option (N * nat * Z * Z) :=
    match n with
    | O => Some (m, num, k0, k1)
    | S n' =>
      do v <- get8 (a_bytes h) i;
      let k0 := if (0 <? v)%N && (v <? 32)%N then (k0 + (inv0 v - 2 ^ 31))%Z else k0 in
      let k1 := if (32 <=? v)%N then (k1 + (inv1 v - 2 ^ 63))%Z else k1 in
      if (m <? v)%N then rebuild_loop n' (S i) h m num k0 k1
      else if (v <? m)%N then rebuild_loop n' (S i) h v 1 k0 k1
      else rebuild_loop n' (S i) h m (num + 1) k0 k1
    end.
  Definition rebuild (s : hstate) : option hstate :=
    match s with
    | HArr T8 h =>
      if a_rebuild h then
        do r <- rebuild_loop (nslots (a_lgK h)) 0 h 64 0 (Z.of_N (2 ^ a_lgK h) * 2 ^ 31) 0;
        let '(m, num, k0, k1) := r in
        Some (HArr T8 (set_rebuild (set_num (set_min (set_est h (a_hip h) k0 k1) m) num) false))
      else Some s
    | _ => Some s
    end.
  (** GetResult (union.go:87-93): (the union, whose gadget was rebuilt; the result). *)
  Definition un_result (u : hunion) (t : tgt) : option (hunion * hstate) :=
    do g <- rebuild (u_gadget u); do r <- copy_as g t; Some (mkUn (u_max u) g, r).
  (** Reset (union.go:196-198): the gadget's Reset, at the gadget's current lgK. *)
  Definition un_reset (u : hunion) : option hunion := do g <- sk_reset (u_gadget u); Some (mkUn (u_max u) g).
End Hll.
Arguments harr : clear implicits.
Arguments hstate : clear implicits.
Arguments hunion : clear implicits.
