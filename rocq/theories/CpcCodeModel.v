(** * Model of the entropy coder of cpc/cpc_compressed_state.go and cpc/compression_data.go.

    Go's int and uint64 are [N] (counts and bit positions are [nat]); the 64-bit bit buffer is
    truncated explicitly by [u64].  [Panic] is a run-time panic, [Err] a returned error. *)
From Verif Require Import Base Bytes Arr BitPackModel CpcTable CpcModel CpcTables.
Local Open Scope nat_scope.

(** ** Tables built at start-up *)

(** compression_data.go:28-45 makeInversePermutation: inverse[v] = i for every entry, then the check. *)
Fixpoint invert_loop (i : N) (perm : list N) (inv : list N) : res (list N) :=
  match perm with
  | [] => Ok inv
  | v :: r => let* inv' := of_opt (wr (N.to_nat v) i inv) in invert_loop (i + 1)%N r inv'
  end.
Fixpoint invert_check (n : nat) (i : nat) (perm inv : list N) : res unit :=
  match n with
  | O => Ok tt
  | S n' =>
      let* v := of_opt (nth_error inv i) in
      let* w := of_opt (nth_error perm (N.to_nat v)) in
      if (w =? N.of_nat i)%N then invert_check n' (S i) perm inv else Err
  end.
Definition invert_perm (perm : list N) : res (list N) :=
  let* inv := invert_loop 0 perm (repeat 0%N (length perm)) in
  let* _ := invert_check (length perm) 0 perm inv in
  Ok inv.

(** compression_data.go:57-63: one table write per value of the garbage bits. *)
Fixpoint fill_copies (n : nat) (g : nat) (code len entry : N) (tbl : list N) : res (list N) :=
  match n with
  | O => Ok tbl
  | S n' =>
      let ext := N.lor code (N.shiftl (N.of_nat g) len) in
      let* tbl' := of_opt (wr (N.to_nat (N.land ext 4095)) entry tbl) in
      fill_copies n' (S g) code len entry tbl'
  end.
(** compression_data.go:51-64: the loop over the byte values; a negative shift count panics. *)
Fixpoint fill_table (n : nat) (v : nat) (enc tbl : list N) : res (list N) :=
  match n with
  | O => Ok tbl
  | S n' =>
      let* e := of_opt (nth_error enc v) in
      let code := N.land e 4095 in
      let len := N.shiftr e 12 in
      let entry := N.lor (N.shiftl len 8) (N.of_nat v) in
      if (12 <? len)%N then Panic
      else
        let* tbl' := fill_copies (2 ^ (12 - N.to_nat len)) 0 code len entry tbl in
        fill_table n' (S v) enc tbl'
  end.
(** compression_data.go:48-66 makeDecodingTable(encodingTable, numByteValues) *)
Definition make_decoding_table (enc : list N) (numByteValues : nat) : res (list N) :=
  fill_table numByteValues 0 enc (repeat 0%N (2 ^ 12)).

(** compression_data.go:6049-6064 makeTheDecodingTables: the unary table, the 22 byte tables and the
    16 inverse permutations.  They are constants; the model rebuilds one where it is used. *)
Definition unary_dec : res (list N) := make_decoding_table unary_enc 65.
Definition byte_dec (phase : nat) : res (list N) :=
  let* enc := of_opt (nth_error byte_encs phase) in make_decoding_table enc 256.
Definition col_perm_dec (phase : nat) : res (list N) :=
  let* p := of_opt (nth_error col_perms phase) in invert_perm p.

(** ** The bit writer: compressedWords, nextWordIndex, bitBuf, bufBits *)
Record bw := mkBw { w_arr : list N; w_idx : nat; w_buf : N; w_bits : nat }.

(** cpc_compressed_state.go:818-823 (and 849-854, 863-868, 1021-1026, ...): store a full word. *)
Definition flush (w : bw) : res bw :=
  if 32 <=? w_bits w then
    let* arr := of_opt (wr (w_idx w) (N.land (w_buf w) 4294967295) (w_arr w)) in
    Ok (mkBw arr (w_idx w + 1) (N.shiftr (w_buf w) 32) (w_bits w - 32))
  else Ok w.

(** cpc_compressed_state.go:814-823: bitBuf |= code << bufBits; bufBits += len; store a full word. *)
Definition emit (w : bw) (code : N) (len : nat) : res bw :=
  flush (mkBw (w_arr w) (w_idx w) (N.lor (w_buf w) (u64 (N.shiftl code (N.of_nat (w_bits w))))) (w_bits w + len)).

(** cpc_compressed_state.go:1013-1021, 858-868: advance over zero bits. *)
Definition skip (w : bw) (len : nat) : res bw :=
  flush (mkBw (w_arr w) (w_idx w) (w_buf w) (w_bits w + len)).

(** cpc_compressed_state.go:1005-1036 writeUnary; [fuel] at least the value. *)
Fixpoint write_unary (fuel : nat) (w : bw) (remaining : nat) : res bw :=
  if 16 <=? remaining then
    match fuel with
    | O => Panic
    | S f => let* w' := skip w 16 in write_unary f w' (remaining - 16)
    end
  else emit w (u64 (N.shiftl 1 (N.of_nat remaining))) (1 + remaining).

(** cpc_compressed_state.go:869-873, 1193-1198: store the last, partial word. *)
Definition finish (w : bw) (padding : nat) : res (list N * nat) :=
  let* w1 := skip w padding in
  if 0 <? w_bits w1 then
    let* arr := of_opt (wr (w_idx w1) (N.land (w_buf w1) 4294967295) (w_arr w1)) in
    Ok (arr, w_idx w1 + 1)
  else Ok (w_arr w1, w_idx w1).

(** ** Pairs *)

(** cpc_compressed_state.go:787-855: the loop of lowLevelCompressPairs. *)
Fixpoint compress_pairs_loop (pairs : list N) (b : nat) (prow pcol : N) (w : bw) : res bw :=
  match pairs with
  | [] => Ok w
  | rc :: rest =>
      let row := N.shiftr rc 6 in
      let col := N.land rc 63 in
      let pcol := if (row =? prow)%N then pcol else 0%N in
      if (row <? prow)%N || (col <? pcol)%N then Err
      else
        let y := (row - prow)%N in
        let x := (col - pcol)%N in
        let* info := of_opt (nth_error unary_enc (N.to_nat x)) in
        let* w1 := emit w (N.land info 4095) (N.to_nat (N.shiftr info 12)) in
        let lo := N.land y (N.shiftl 1 (N.of_nat b) - 1) in
        let hi := N.to_nat (N.shiftr y (N.of_nat b)) in
        let* w2 := write_unary hi w1 hi in
        let* w3 := emit w2 lo b in
        compress_pairs_loop rest b row (col + 1)%N w3
  end.

(** cpc_compressed_state.go:774-875 lowLevelCompressPairs: the filled word array and the number of
    words used. *)
Definition compress_pairs (pairs : list N) (b : nat) (words : list N) : res (list N * nat) :=
  let* w := compress_pairs_loop pairs b 0 0 (mkBw words 0 0 0) in
  finish w (10 - b).

(** ** The bit reader: nextWordIndex, bitBuf, bufBits *)
Record br := mkBr { r_idx : nat; r_buf : N; r_bits : nat }.

(** cpc_compressed_state.go:891-897 (and 930-936, 971-977, 1224-1231): at least [need] bits. *)
Definition refill (words : list N) (need : nat) (r : br) : res br :=
  if r_bits r <? need then
    match nth_error words (r_idx r) with
    | None => Err
    | Some x =>
        Ok (mkBr (r_idx r + 1) (N.lor (r_buf r) (u64 (N.shiftl (N.land x 4294967295) (N.of_nat (r_bits r)))))
                 (r_bits r + 32))
    end
  else Ok r.
Definition drop (n : nat) (r : br) : br := mkBr (r_idx r) (N.shiftr (r_buf r) (N.of_nat n)) (r_bits r - n).

(** cpc_compressed_state.go:958-1003 readUnary: (value, reader); a step consumes eight zero bits, so
    [4 * length words + 5] steps are enough. *)
Fixpoint read_unary (fuel : nat) (words : list N) (sub : nat) (r : br) : res (nat * br) :=
  let* r1 := refill words 8 r in
  let tz := ctz_from 8 0 (N.land (r_buf r1) 255) in
  if tz =? 8 then
    match fuel with
    | O => Panic
    | S f => read_unary f words (sub + 8) (drop 8 r1)
    end
  else Ok (sub + tz, drop (1 + tz) r1).

(** cpc_compressed_state.go:888-950: the loop of lowLevelUncompressPairs, [n] pairs left. *)
Fixpoint uncompress_pairs_loop (n : nat) (b : nat) (dec words : list N) (prow pcol : N) (r : br) : res (list N * br) :=
  match n with
  | O => Ok ([], r)
  | S n' =>
      let* r1 := refill words 12 r in
      let* lookup := of_opt (nth_error dec (N.to_nat (N.land (r_buf r1) 4095))) in
      let len := N.to_nat (N.shiftr lookup 8) in
      let x := N.land lookup 255 in
      let* (hi, r2) := read_unary (4 * length words + 5) words 0 (drop len r1) in
      let* r3 := refill words b r2 in
      let lo := N.land (r_buf r3) (N.shiftl 1 (N.of_nat b) - 1) in
      let y := N.lor (u64 (N.shiftl (N.of_nat hi) (N.of_nat b))) lo in
      let pcol := if (0 <? y)%N then 0%N else pcol in
      let row := (prow + y)%N in
      let col := (pcol + x)%N in
      let* (rest, r4) := uncompress_pairs_loop n' b dec words row (col + 1)%N (drop b r3) in
      Ok (N.lor (N.shiftl row 6) col :: rest, r4)
  end.

(** cpc_compressed_state.go:873-957 lowLevelUncompressPairs *)
Definition uncompress_pairs (n b : nat) (words : list N) (numWords : nat) : res (list N) :=
  let* dec := unary_dec in
  let* (ps, r) := uncompress_pairs_loop n b dec words 0 0 (mkBr 0 0 0) in
  if numWords <? r_idx r then Err else Ok ps.

(** ** Bytes *)

(** cpc_compressed_state.go:1163-1184: the loop of lowLevelCompressBytes. *)
Fixpoint compress_bytes_loop (bytes enc : list N) (w : bw) : res bw :=
  match bytes with
  | [] => Ok w
  | x :: rest =>
      let* info := of_opt (nth_error enc (N.to_nat x)) in
      let* w1 := emit w (N.land info 4095) (N.to_nat (N.shiftr info 12)) in
      compress_bytes_loop rest enc w1
  end.
(** cpc_compressed_state.go:1158-1199 lowLevelCompressBytes *)
Definition compress_bytes (bytes enc words : list N) : res (list N * nat) :=
  let* w := compress_bytes_loop bytes enc (mkBw words 0 0 0) in
  finish w 11.

(** cpc_compressed_state.go:1218-1242: the loop of lowLevelUncompressBytes. *)
Fixpoint uncompress_bytes_loop (n : nat) (dec words : list N) (r : br) : res (list N * br) :=
  match n with
  | O => Ok ([], r)
  | S n' =>
      let* r1 := refill words 12 r in
      let* lookup := of_opt (nth_error dec (N.to_nat (N.land (r_buf r1) 4095))) in
      let* (rest, r2) := uncompress_bytes_loop n' dec words (drop (N.to_nat (N.shiftr lookup 8)) r1) in
      Ok (N.land lookup 255 :: rest, r2)
  end.
(** cpc_compressed_state.go:1201-1249 lowLevelUncompressBytes *)
Definition uncompress_bytes (n : nat) (dec words : list N) (numWords : nat) : res (list N) :=
  let* (bs, r) := uncompress_bytes_loop n dec words (mkBr 0 0 0) in
  if numWords <? r_idx r then Err else Ok bs.

(** ** Parameters *)

(** cpc_compressed_state.go:729-742 golombChooseNumberOfBaseBits, floorLog2 *)
Definition golomb_bits (k count : nat) : res nat :=
  if (k <? 1) || (count <? 1) then Err
  else
    let q := (k - count) / count in
    if q =? 0 then Ok 0 else Ok (N.to_nat (N.log2 (N.of_nat q))).

(** cpc_compressed_state.go:766-772 *)
Definition div32_up (x : N) : N :=
  let t := N.shiftr x 5 in if (N.shiftl t 5 =? x)%N then t else (t + 1)%N.

(** cpc_compressed_state.go:744-764 safeLengthForCompressedPairBuf *)
Definition safe_pair_len (k n b : nat) : res nat :=
  if n <? 1 then Err
  else
    let ybits := (N.of_nat n * (1 + N.of_nat b) + N.shiftr (N.of_nat k) (N.of_nat b))%N in
    let xbits := (12 * N.of_nat n)%N in
    let words := div32_up (xbits + ybits + N.of_nat (10 - b)) in
    if (2147483648 <=? words)%N then Err else Ok (N.to_nat words).

(** cpc_compressed_state.go:1117-1122 safeLengthForCompressedWindowBuf *)
Definition safe_window_len (k : nat) : nat := N.to_nat (div32_up (12 * N.of_nat k + 11)).

(** cpc_compressed_state.go:1124-1156 determinePseudoPhase *)
Definition pseudo_phase (lgK C : nat) : res nat :=
  let k := (2 ^ N.of_nat lgK)%N in
  let c := N.of_nat C in
  if (1000 * c <? 2375 * k)%N then
    if (4 * c <? 3 * k)%N then Ok 16
    else if (10 * c <? 11 * k)%N then Ok 17
    else if (100 * c <? 132 * k)%N then Ok 18
    else if (3 * c <? 5 * k)%N then Ok 19
    else if (1000 * c <? 1965 * k)%N then Ok 20
    else if (1000 * c <? 2275 * k)%N then Ok 21
    else Ok 6
  else if lgK <? 4 then Err
  else Ok (N.to_nat (N.land (N.shiftr c (N.of_nat (lgK - 4))) 15)).

(** cpc_compressed_state.go:679-708 compressTheSurprisingValues(target, source, pairs, len(pairs)):
    the word buffer and the number of words used. *)
Definition compress_surprising (lgK : nat) (pairs : list N) : res (list N * nat) :=
  let n := length pairs in
  if n <? 1 then Err
  else
    let* b := golomb_bits (2 ^ lgK + n) n in
    let* len := safe_pair_len (2 ^ lgK) n b in
    compress_pairs pairs b (repeat 0%N len).

(** cpc_compressed_state.go:710-727 uncompressTheSurprisingValues *)
Definition uncompress_surprising (lgK n : nat) (words : list N) (numWords : nat) : res (list N) :=
  if n <? 1 then Err
  else
    let* b := golomb_bits (2 ^ lgK + n) n in
    uncompress_pairs n b words numWords.

(** cpc_compressed_state.go:1064-1084 compressTheWindow: [window[0..k)]. *)
Definition compress_window (lgK C : nat) (window : list N) : res (list N * nat) :=
  let* phase := pseudo_phase lgK C in
  let* enc := of_opt (nth_error byte_encs phase) in
  if length window <? 2 ^ lgK then Panic
  else compress_bytes (firstn (2 ^ lgK) window) enc (repeat 0%N (safe_window_len (2 ^ lgK))).

(** cpc_compressed_state.go:1086-1115 uncompressTheWindow *)
Definition uncompress_window (lgK C : nat) (words : list N) (numWords : nat) : res (list N) :=
  let* phase := pseudo_phase lgK C in
  let* dec := byte_dec phase in
  uncompress_bytes (2 ^ lgK) dec words numWords.
