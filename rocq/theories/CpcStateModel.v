(** * Model of the compressed state of a CPC sketch and of its byte form
    (cpc/cpc_compressed_state.go, cpc/utils.go, cpc/cpc_sketch.go).

    [F] stands for the two floating-point accumulators (kxp, hipEstAccum) together; [fbits] gives
    their two 64-bit patterns (math.Float64bits) and [fval] reads them back (math.Float64frombits).
    [seed_hash] is internal.ComputeSeedHash (Murmur3, external): the 16-bit pattern of the int16 it
    returns, or its error. *)
From Verif Require Import Base Bytes Arr BitPackModel CpcTable CpcModel CpcTables CpcCodeModel.
Local Open Scope nat_scope.

(** cpc_compressed_state.go:1038-1062 trickyGetPairsFromWindow: the cells of the window, row by
    row, written after [emptySpace] zeros.  One more cell than expected is an index out of range. *)
Fixpoint window_pairs (window : list N) (row : nat) : list N :=
  match window with
  | [] => []
  | b :: r => map (fun c => mk_rc row c) (filter (fun c => N.testbit b (N.of_nat c)) (seq 0 8)) ++ window_pairs r (S row)
  end.
Definition tricky_get (window : list N) (k numPairs emptySpace : nat) : res (list N) :=
  if length window <? k then Panic
  else
    let ps := window_pairs (firstn k window) 0 in
    if numPairs <? length ps then Panic
    else if length ps <? numPairs then Err
    else Ok (repeat 0%N emptySpace ++ ps).

(** Column maps of the pinned (cpc_compressed_state.go:358-365, 399-405) and sliding flavors
    (446-462, 515-526), one pair at a time. *)
Definition pin_enc (x : N) : res N := if (N.land x 63 <? 8)%N then Err else Ok (x - 8)%N.
Definition pin_dec (x : N) : res N := if (56 <=? N.land x 63)%N then Err else Ok (x + 8)%N.
Definition slide_enc (perm : list N) (off : nat) (x : N) : res N :=
  let col := N.land (N.land x 63 + 56 - N.of_nat off) 63 in
  if (56 <=? col)%N then Err
  else let* c := of_opt (nth_error perm (N.to_nat col)) in
       Ok (N.lor (N.shiftl (N.shiftr x 6) 6) c).
Definition slide_dec (perm : list N) (off : nat) (x : N) : res N :=
  let* c := of_opt (nth_error perm (N.to_nat (N.land x 63))) in
  Ok (N.lor (N.shiftl (N.shiftr x 6) 6) (N.land (c + N.of_nat (off + 8)) 63)).
Fixpoint map_res (f : N -> res N) (l : list N) : res (list N) :=
  match l with [] => Ok [] | x :: r => let* y := f x in let* r' := map_res f r in Ok (y :: r') end.

(** cpc_compressed_state.go:308-327: pairs of the first eight columns go into the window, the
    others stay.  A row beyond the window is an index out of range. *)
Fixpoint split_hybrid (pairs window : list N) : res (list N * list N) :=
  match pairs with
  | [] => Ok (window, [])
  | x :: r =>
      if col_of x <? 8 then
        let* b := of_opt (nth_error window (row_of x)) in
        let* w := of_opt (wr (row_of x) (N.lor b (N.shiftl 1 (N.of_nat (col_of x)))) window) in
        split_hybrid r w
      else
        let* (w, rest) := split_hybrid r window in
        Ok (w, x :: rest)
  end.

(** utils.go:114-117 preIntsDefs and 78-92 hiFieldOffset: rows are formats, columns are NumCoupons,
    NumSV, KXP, HipAccum, SVLengthInts, WLengthInts, SVStream, WStream. *)
Definition pre_ints : list nat := [2; 2; 4; 8; 4; 8; 6; 10].
Definition hi_offsets : list (list nat) :=
  [ [0; 0; 0; 0; 0; 0; 0; 0];
    [0; 0; 0; 0; 0; 0; 0; 0];
    [8; 0; 0; 0; 12; 0; 16; 0];
    [8; 0; 16; 24; 12; 0; 32; 0];
    [8; 0; 0; 0; 0; 12; 0; 16];
    [8; 0; 16; 24; 0; 12; 0; 32];
    [8; 12; 0; 0; 16; 20; 24; 24];
    [8; 12; 16; 24; 32; 36; 40; 40] ].
Definition hf_numcoupons := 0. Definition hf_numsv := 1. Definition hf_kxp := 2. Definition hf_hip := 3.
Definition hf_svlen := 4. Definition hf_wlen := 5.
(** utils.go:121-123 getDefinedPreInts, 463-469 getHiFieldOffset; an index beyond the table panics. *)
Definition pre_ints_of (fmt : nat) : res nat := of_opt (nth_error pre_ints fmt).
Definition hi_offset (fmt field : nat) : res nat :=
  let* row := of_opt (nth_error hi_offsets fmt) in
  let* o := of_opt (nth_error row field) in
  if o =? 0 then Err else Ok o.

Definition has_hip (fmt : nat) : bool := Nat.testbit fmt 0.
Definition has_sv (fmt : nat) : bool := Nat.testbit fmt 1.
Definition has_win (fmt : nat) : bool := Nat.testbit fmt 2.

(** A write of [k] bytes of [v] at [off] (binary.LittleEndian.PutUintX(mem[off:], v)). *)
Fixpoint put_fields (fs : list (nat * nat * N)) (mem : list N) : res (list N) :=
  match fs with
  | [] => Ok mem
  | (k, off, v) :: r => let* m := of_opt (put_le k off v mem) in put_fields r m
  end.
(** for i := 0; i < n; i++ { PutUint32(mem[off+4*i:], uint32(stream[i])) } *)
Fixpoint put_words (n : nat) (stream : list N) (off : nat) (mem : list N) : res (list N) :=
  match n with
  | 0 => Ok mem
  | S n' =>
      match stream with
      | [] => Panic
      | v :: r => let* m := of_opt (put_le 4 off v mem) in put_words n' r (off + 4) m
      end
  end.
(** for i := 0; i < n; i++ { stream[i] = int(Uint32(bytes[off : off+4])); off += 4 } *)
Fixpoint get_words (n off : nat) (bytes : list N) : res (list N) :=
  match n with
  | 0 => Ok []
  | S n' => let* v := of_opt (get_le 4 off bytes) in let* r := get_words n' (off + 4) bytes in Ok (v :: r)
  end.

Section State.
Variable F : Type.
Variable HO : hip_ops F.
Variable fbits : F -> N * N.
Variable fval : N * N -> F.
Variable seed_hash : N -> res N.
Notation cpcF := (cpc F).

(** cpc_compressed_state.go:36-52 CpcCompressedState; the two flags CsvIsValid and WindowIsValid are
    written and never read, and left out. *)
Record cstate := mkCs {
  s_lgK : nat; s_hash : N; s_fi : nat; s_merged : bool; s_n : nat; s_hip : F;
  s_ncsv : nat; s_csv : option (list N); s_csvlen : nat; s_cw : option (list N); s_cwlen : nat }.

Definition set_csv (c : cstate) (n : nat) (words : list N) (len : nat) : cstate :=
  mkCs (s_lgK c) (s_hash c) (s_fi c) (s_merged c) (s_n c) (s_hip c) n (Some words) len (s_cw c) (s_cwlen c).
Definition set_cw (c : cstate) (words : list N) (len : nat) : cstate :=
  mkCs (s_lgK c) (s_hash c) (s_fi c) (s_merged c) (s_n c) (s_hip c) (s_ncsv c) (s_csv c) (s_csvlen c) (Some words) len.

(** cpc_compressed_state.go:679-708 compressTheSurprisingValues *)
Definition put_csv (c : cstate) (s : cpcF) (ps : list N) : res cstate :=
  let* (words, len) := compress_surprising (c_lgK s) ps in
  Ok (set_csv c (length ps) words len).

(** cpc_compressed_state.go:206-220 compressSparseFlavor *)
Definition compress_sparse (c : cstate) (s : cpcF) : res cstate :=
  match c_win s with
  | Some _ => Err
  | None =>
      let* t := of_opt (c_tab s) in
      let* ps := unwrap t (t_n t) in
      put_csv c s (isort ps)
  end.

(** cpc_compressed_state.go:243-281 compressHybridFlavor; the subtraction at 266 is on uint64 and a
    wrapped result exceeds the limit tested at 268. *)
Definition compress_hybrid (c : cstate) (s : cpcF) : res cstate :=
  let* t := of_opt (c_tab s) in
  let* ps := unwrap t (t_n t) in
  let ps := isort ps in
  match c_win s with
  | None => Err
  | Some w =>
      if negb (c_off s =? 0) then Err
      else if c_n s <? t_n t then Err
      else if (2147483647 <=? N.of_nat (c_n s - t_n t))%N then Err
      else
        let* all := tricky_get w (2 ^ c_lgK s) (c_n s - t_n t) (t_n t) in
        let* merged := merge_pairs ps all (t_n t) (t_n t) (c_n s - t_n t) in
        put_csv c s merged
  end.

(** cpc_compressed_state.go:1064-1084 compressTheWindow *)
Definition put_win (c : cstate) (s : cpcF) : res cstate :=
  let* (words, len) := compress_window (c_lgK s) (c_n s) (match c_win s with Some w => w | None => [] end) in
  Ok (set_cw c words len).

(** cpc_compressed_state.go:345-369 compressPinnedFlavor *)
Definition compress_pinned (c : cstate) (s : cpcF) : res cstate :=
  let* c1 := put_win c s in
  let* t := of_opt (c_tab s) in
  if t_n t =? 0 then Ok c1
  else
    let* ps := unwrap t (t_n t) in
    let* qs := map_res pin_enc ps in
    put_csv c1 s (isort qs).

(** cpc_compressed_state.go:419-469 compressSlidingFlavor *)
Definition compress_sliding (c : cstate) (s : cpcF) : res cstate :=
  let* c1 := put_win c s in
  let* t := of_opt (c_tab s) in
  if t_n t =? 0 then Ok c1
  else
    let* ps := unwrap t (t_n t) in
    let* phase := pseudo_phase (c_lgK s) (c_n s) in
    if 16 <=? phase then Err
    else
      let* perm := of_opt (nth_error col_perms phase) in
      if (c_off s =? 0) || (56 <? c_off s) then Err
      else
        let* qs := map_res (slide_enc perm (c_off s)) ps in
        put_csv c1 s (isort qs).

(** cpc_compressed_state.go:103-139 compress; the checks on the streams made there hold whenever
    the flavor's function succeeds. *)
Definition compress (c : cstate) (s : cpcF) : res cstate :=
  match get_flavor F s with
  | Empty => Ok c
  | Sparse => compress_sparse c s
  | Hybrid => compress_hybrid c s
  | Pinned => compress_pinned c s
  | Sliding => compress_sliding c s
  end.

(** cpc_compressed_state.go:54-78 NewCpcCompressedState, NewCpcCompressedStateFromSketch *)
Definition new_state (lgK : nat) (h : N) : cstate := mkCs lgK h 0 false 0 (h_init HO lgK) 0 None 0 None 0.
Definition state_of (s : cpcF) : res cstate :=
  let* h := seed_hash (c_seed s) in
  compress (mkCs (c_lgK s) h (c_fi s) (c_merged s) (c_n s) (c_hip s) 0 None 0 None 0) s.

(** cpc_compressed_state.go:89-101 getFormat, 80-83 getRequiredSerializedBytes *)
Definition get_format (c : cstate) : nat :=
  (if 0 <? s_cwlen c then 4 else 0) + (if 0 <? s_ncsv c then 2 else 0) + (if s_merged c then 0 else 1).
Definition required_bytes (c : cstate) : res nat :=
  let* pre := pre_ints_of (get_format c) in
  Ok (4 * (pre + s_csvlen c + s_cwlen c)).

(** utils.go:485-846: putEmptyMerged, putEmptyHip, putSparseHybridMerged, putSparseHybridHip,
    putPinnedSlidingMergedNoSv, putPinnedSlidingHipNoSv, putPinnedSlidingMerged, putPinnedSlidingHip
    and putFirst8.  The eight functions differ in which fields they write; that is a function of the
    format's three bits, and this is the one function of those bits.  The first column of interest
    is written for formats with a window and 0 otherwise.  The order of the scalar writes, which go
    to different bytes, is fixed here to the order of putPinnedSlidingHip; the capacity checks
    compare len(mem) with the size [mem] was made with and are left out. *)
Definition lo_fields (fmt pre : nat) (c : cstate) : list (nat * nat * N) :=
  [ (1, 0, N.of_nat pre); (1, 1, 1%N); (1, 2, 16%N); (1, 3, N.of_nat (s_lgK c));
    (1, 4, if has_win fmt then N.of_nat (s_fi c) else 0%N);
    (1, 5, (N.of_nat fmt * 4 + 2)%N); (2, 6, s_hash c) ].
Definition hi_field (on : bool) (fmt field k : nat) (v : N) : res (list (nat * nat * N)) :=
  if on then let* o := hi_offset fmt field in Ok [(k, o, v)] else Ok [].
Definition hi_fields (fmt : nat) (c : cstate) : res (list (nat * nat * N)) :=
  let any := has_sv fmt || has_win fmt in
  let* f1 := hi_field any fmt hf_numcoupons 4 (N.of_nat (s_n c)) in
  let* f2 := hi_field (has_sv fmt && has_win fmt) fmt hf_numsv 4 (N.of_nat (s_ncsv c)) in
  let* f3 := hi_field (any && has_hip fmt) fmt hf_kxp 8 (fst (fbits (s_hip c))) in
  let* f4 := hi_field (any && has_hip fmt) fmt hf_hip 8 (snd (fbits (s_hip c))) in
  let* f5 := hi_field (has_sv fmt) fmt hf_svlen 4 (N.of_nat (s_csvlen c)) in
  let* f6 := hi_field (has_win fmt) fmt hf_wlen 4 (N.of_nat (s_cwlen c)) in
  Ok (f1 ++ f2 ++ f3 ++ f4 ++ f5 ++ f6).

(** utils.go:405-451 getSvStreamOffset, 371-403 getWStreamOffset, on a buffer holding the preamble. *)
Definition sv_stream_offset (mem : list N) : res nat :=
  let* flags := of_opt (get_le 1 5 mem) in
  let fmt := N.to_nat (N.land (N.shiftr flags 2) 7) in
  if (N.land flags 8 =? 0)%N then Err
  else
    let* o := hi_offset fmt hf_svlen in
    let* svlen := of_opt (get_le 4 o mem) in
    if (svlen =? 0)%N then Err
    else
      let* pre := of_opt (get_le 1 0 mem) in
      if (N.land flags 16 =? 0)%N then Ok (4 * N.to_nat pre)
      else
        let* o2 := hi_offset fmt hf_wlen in
        let* wlen := of_opt (get_le 4 o2 mem) in
        if (wlen =? 0)%N then Err
        else Ok (4 * (N.to_nat pre + N.to_nat wlen)).
Definition w_stream_offset (mem : list N) : res nat :=
  let* flags := of_opt (get_le 1 5 mem) in
  let fmt := N.to_nat (N.land (N.shiftr flags 2) 7) in
  if (N.land flags 16 =? 0)%N then Err
  else
    let* o := hi_offset fmt hf_wlen in
    if length mem <? o + 4 then Err
    else
      let* wlen := of_opt (get_le 4 o mem) in
      if (wlen =? 0)%N then Err
      else let* pre := of_opt (get_le 1 0 mem) in Ok (4 * N.to_nat pre).

(** cpc_compressed_state.go:626-677 exportToMemory *)
Definition export (c : cstate) : res (list N) :=
  let fmt := get_format c in
  let* total := required_bytes c in
  let* pre := pre_ints_of fmt in
  let* hi := hi_fields fmt c in
  let* m1 := put_fields (lo_fields fmt pre c ++ hi) (repeat 0%N total) in
  let* m2 :=
    (if has_sv fmt then
       let* o := sv_stream_offset m1 in
       put_words (s_csvlen c) (match s_csv c with Some l => l | None => [] end) o m1
     else Ok m1) in
  if has_win fmt then
    let* o := w_stream_offset m2 in
    put_words (s_cwlen c) (match s_cw c with Some l => l | None => [] end) o m2
  else Ok m2.

(** cpc_sketch.go:546-553 ToCompactSlice *)
Definition to_slice (s : cpcF) : res (list N) := let* c := state_of s in export c.

(** utils.go:275-300 checkLoPreamble, with checkBounds *)
Definition check_lo (bytes : list N) : res unit :=
  if length bytes <? 8 then Err
  else
    let b i := nth i bytes 0%N in
    if negb (b 1%nat =? 1%N)%N then Err
    else
      let* pre := pre_ints_of (N.to_nat (N.land (N.shiftr (b 5%nat) 2) 7)) in
      if negb (b 0%nat =? N.of_nat pre)%N then Err
      else if negb (b 2%nat =? 16)%N then Err
      else if (b 3%nat <? 4)%N || (26 <? b 3%nat)%N then Err
      else if (63 <? b 4%nat)%N then Err
      else Ok tt.

(** A uint32 (uint64) field at its hi-field offset: utils.go:328-336, 356-369, 453-456.  The error of
    getHiFieldOffset is ignored there and cannot occur for the formats that read the field. *)
Definition get_hi (k fmt field : nat) (bytes : list N) : res N :=
  let* o := hi_offset fmt field in of_opt (get_le k o bytes).
(** utils.go:371-380 getWStream, 405-414 getSvStream: on an error the offset is 0. *)
Definition or_zero (o : res nat) : res nat := match o with Err => Ok 0 | x => x end.
Definition get_sv_stream (n : nat) (bytes : list N) : res (list N) :=
  let* o := or_zero (sv_stream_offset bytes) in get_words n o bytes.
Definition get_w_stream (n : nat) (bytes : list N) : res (list N) :=
  let* o := or_zero (w_stream_offset bytes) in get_words n o bytes.

(** cpc_compressed_state.go:539-624 importFromMemory: the eight cases as a function of the format's
    three bits.  In the formats without a window NumCsv is NumCoupons. *)
Definition import (bytes : list N) : res cstate :=
  let* _ := check_lo bytes in
  let b i := nth i bytes 0%N in
  if (N.land (b 5%nat) 2 =? 0)%N then Err
  else
    let lgK := N.to_nat (b 3) in
    let fmt := N.to_nat (N.land (N.shiftr (b 5%nat) 2) 7) in
    let h := (b 6%nat + 256 * b 7%nat)%N in
    let merged := negb (has_hip fmt) in
    if negb (has_sv fmt) && negb (has_win fmt) then
      Ok (mkCs lgK h 0 merged 0 (h_init HO lgK) 0 None 0 None 0)
    else
      let fi := if has_win fmt then N.to_nat (b 4) else 0 in
      let* n := get_hi 4 fmt hf_numcoupons bytes in
      let* ncsv := (if negb (has_sv fmt) then Ok 0%N else if has_win fmt then get_hi 4 fmt hf_numsv bytes else Ok n) in
      let* svlen := (if has_sv fmt then get_hi 4 fmt hf_svlen bytes else Ok 0%N) in
      let* wlen := (if has_win fmt then get_hi 4 fmt hf_wlen bytes else Ok 0%N) in
      let* hip := (if has_hip fmt then
                     let* x := get_hi 8 fmt hf_kxp bytes in
                     let* y := get_hi 8 fmt hf_hip bytes in Ok (fval (x, y))
                   else Ok (h_init HO lgK)) in
      let c := mkCs lgK h fi merged (N.to_nat n) hip (N.to_nat ncsv) None (N.to_nat svlen) None (N.to_nat wlen) in
      let* need := required_bytes c in
      if length bytes <? need then Err
      else
        let* c1 := (if has_win fmt then
                      let* ws := get_w_stream (N.to_nat wlen) bytes in Ok (set_cw c ws (N.to_nat wlen))
                    else Ok c) in
        if has_sv fmt then
          let* ws := get_sv_stream (N.to_nat svlen) bytes in Ok (set_csv c1 (N.to_nat ncsv) ws (N.to_nat svlen))
        else Ok c1.

(** cpc_compressed_state.go:85-87 getWindowOffset *)
Definition window_offset (c : cstate) : nat := correct_offset (s_lgK c) (s_n c).

Definition set_data (s : cpcF) (off : nat) (w : option (list N)) (t : table) : cpcF :=
  mkCpc (c_seed s) (c_lgK s) (c_n s) (c_merged s) (c_fi s) off w (Some t) (c_hip s).

Definition get_csv (c : cstate) : res (list N) :=
  match s_csv c with
  | None => Err
  | Some ws => uncompress_surprising (s_lgK c) (s_ncsv c) ws (s_csvlen c)
  end.

(** cpc_compressed_state.go:222-241 uncompressSparseFlavor (and the check at 148-150) *)
Definition uncompress_sparse (c : cstate) (s : cpcF) : res cpcF :=
  match s_cw c with
  | Some _ => Err
  | None =>
      let* ps := get_csv c in
      let* t := from_pairs ps (s_lgK c) in
      Ok (set_data s (c_off s) None t)
  end.

(** cpc_compressed_state.go:283-343 uncompressHybridFlavor *)
Definition uncompress_hybrid (c : cstate) (s : cpcF) : res cpcF :=
  match s_cw c with
  | Some _ => Err
  | None =>
      let* ps := get_csv c in
      let* (w, rest) := split_hybrid ps (repeat 0%N (2 ^ s_lgK c)) in
      if negb (window_offset c =? 0) then Err
      else
        let* t := from_pairs rest (s_lgK c) in
        Ok (set_data s 0 (Some w) t)
  end.

(** cpc_compressed_state.go:371-417 uncompressPinnedFlavor *)
Definition uncompress_pinned (c : cstate) (s : cpcF) : res cpcF :=
  match s_cw c with
  | None => Err
  | Some cw =>
      let* w := uncompress_window (s_lgK c) (s_n c) cw (s_cwlen c) in
      if s_ncsv c =? 0 then
        let* t := new_table 2 (6 + s_lgK c) in Ok (set_data s (c_off s) (Some w) t)
      else
        let* ps := get_csv c in
        let* qs := map_res pin_dec ps in
        let* t := from_pairs qs (s_lgK c) in
        Ok (set_data s (c_off s) (Some w) t)
  end.

(** cpc_compressed_state.go:471-537 uncompressSlidingFlavor *)
Definition uncompress_sliding (c : cstate) (s : cpcF) : res cpcF :=
  match s_cw c with
  | None => Err
  | Some cw =>
      let* w := uncompress_window (s_lgK c) (s_n c) cw (s_cwlen c) in
      if s_ncsv c =? 0 then
        let* t := new_table 2 (6 + s_lgK c) in Ok (set_data s (c_off s) (Some w) t)
      else
        let* ps := get_csv c in
        let* phase := pseudo_phase (s_lgK c) (s_n c) in
        if 16 <=? phase then Err
        else
          let* perm := col_perm_dec phase in
          let off := window_offset c in
          if (off =? 0) || (56 <? off) then Err
          else
            let* qs := map_res (slide_dec perm off) ps in
            let* t := from_pairs qs (s_lgK c) in
            Ok (set_data s (c_off s) (Some w) t)
  end.

(** cpc_compressed_state.go:141-165 uncompress *)
Definition uncompress (c : cstate) (s : cpcF) : res cpcF :=
  match get_flavor F s with
  | Empty => Ok s
  | Sparse => uncompress_sparse c s
  | Hybrid => uncompress_hybrid c s
  | Pinned => uncompress_pinned c s
  | Sliding => uncompress_sliding c s
  end.

(** cpc_sketch.go:94-115 NewCpcSketchFromSlice *)
Definition from_state (c : cstate) (seed : N) : res cpcF :=
  let* s := new_cpc F HO (s_lgK c) seed in
  uncompress c (mkCpc (c_seed s) (c_lgK s) (s_n c) (s_merged c) (s_fi c) (window_offset c) None None (s_hip c)).
Definition from_slice (bytes : list N) (seed : N) : res cpcF :=
  let* c := import bytes in from_state c seed.

(** cpc_compressed_state.go:167-204 uncompressSketch *)
Definition uncompress_sketch (c : cstate) (seed : N) : res cpcF :=
  let* h := seed_hash seed in
  if negb (h =? s_hash c)%N then Err else from_state c seed.
End State.
