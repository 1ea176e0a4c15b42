(** * Model of theta serialization: encoder.go, decoder.go, the size functions of compact_sketch.go,
    and wrapped_compact_sketch.go.
    A []byte is a list of [N] below 256. Results: [Ok], [Err] (an error is returned) or [Panic] (index out of range).
    ComputeSeedHash(seed) is a parameter [want : option N] ([None]: it returns an error).
    int is taken unbounded: all int values here are below 2^40. io.Writer / io.Reader are not modelled
    (the buffer written or read is the value). *)
From Verif Require Import Base Bytes Arr BitPackData BitPackModel HashtableModel ThetaModel.
Local Open Scope nat_scope.

(** compact_sketch.go IsEstimationMode. *)
Definition est (s : sketch) : bool := (sk_theta s <? MaxTheta)%N && negb (sk_empty s).

(** compact_sketch.go preambleLongs(compressed). *)
Definition preamble_longs (s : sketch) (compressed : bool) : nat :=
  if compressed then (if est s then 2 else 1)
  else if est s then 3 else if sk_empty s || (length (sk_entries s) =? 1) then 1 else 2.

(** compact_sketch.go isSuitableForCompression. *)
Definition suitable (s : sketch) : bool :=
  negb (negb (sk_ordered s) || (length (sk_entries s) =? 0) || ((length (sk_entries s) =? 1) && negb (est s))).

(** uint64 subtraction and addition. *)
Definition sub64 (a b : N) : N := u64 (a + (2 ^ 64 - b)).
Definition add64 (a b : N) : N := u64 (a + b).

(** compact_sketch.go computeEntryBits: bits.Len64 of the OR of all deltas. *)
Fixpoint ored (prev acc : N) (es : list N) : N :=
  match es with [] => acc | e :: r => ored e (N.lor acc (sub64 e prev)) r end.
Definition entry_bits (s : sketch) : N := N.size (ored 0 0 (sk_entries s)).

(** compact_sketch.go wholeBytesToHoldBits. *)
Definition whole_bytes (bits : N) : N := (N.shiftr bits 3 + (if 0 <? N.land bits 7 then 1 else 0))%N.

(** compact_sketch.go numEntriesBytes. *)
Definition u32 (x : N) : N := (x mod 2 ^ 32)%N.
Definition num_entries_bytes (s : sketch) : N :=
  let n := u32 (N.of_nat (length (sk_entries s))) in if (n =? 0)%N then 1%N else whole_bytes (N.size n).

(** compact_sketch.go compressedSerializedSizeBytes, SerializedSizeBytes. *)
Definition compressed_size (s : sketch) (w nb : N) : nat :=
  preamble_longs s true * 8 + N.to_nat nb + N.to_nat (whole_bytes (w * N.of_nat (length (sk_entries s)))).
Definition serialized_size (s : sketch) (compressed : bool) : nat :=
  if compressed && suitable s then compressed_size s (entry_bits s) (num_entries_bytes s)
  else preamble_longs s false * 8 + length (sk_entries s) * 8.

(** compact_sketch.go MaxSerializedSizeBytes(lgK): the result type is uint8. computeCapacity: hashtable.go. *)
Definition max_serialized_size (lgK : N) (capacity : N) : N := u8 (8 * (3 + capacity)).

(** encoder.go:201-205 the loop of PutUint64(bytes[offset:offset+8], entry). *)
Fixpoint put_entries (off : nat) (es : list N) (buf : list N) : option (list N) :=
  match es with [] => Some buf | e :: r => do buf' <- put_le 8 off e buf ; put_entries (off + 8) r buf' end.

(** encoder.go:141-206 encodeWithoutCompression, encodeSketch. *)
Definition encode_plain (s : sketch) : option (list N) :=
  let pre := preamble_longs s false in
  let buf := repeat 0%N (serialized_size s false) in
  do buf <- wr 0 (N.of_nat pre) buf ;
  do buf <- wr 1 3%N buf ;
  do buf <- wr 2 3%N buf ;
  let flags := (2 ^ 3 + 2 ^ 1 + (if sk_empty s then 2 ^ 2 else 0) + (if sk_ordered s then 2 ^ 4 else 0))%N in
  do buf <- wr 5 flags buf ;
  do buf <- put_le 2 6 (sk_seed s) buf ;
  let off := 8 in
  do buf_off <- (if 1 <? pre then do buf <- put_le 4 off (u32 (N.of_nat (length (sk_entries s)))) buf ; Some (buf, off + 8)
                 else Some (buf, off)) ;
  let '(buf, off) := buf_off in
  do buf_off <- (if est s then do buf <- put_le 8 off (sk_theta s) buf ; Some (buf, off + 8) else Some (buf, off)) ;
  let '(buf, off) := buf_off in
  put_entries off (sk_entries s) buf.

(** bytes[offset:] passed to a function that writes into it. *)
Definition on_tail {A} (off : nat) (buf : list N) (f : list N -> res A) : res A :=
  if off <=? length buf then f (skipn off buf) else Panic.

(** encoder.go:112-117: eight deltas. *)
Fixpoint deltas (prev : N) (es : list N) : list N := match es with [] => [] | e :: r => sub64 e prev :: deltas e r end.

(** encoder.go:107-125: blocks of eight. Returns (bytes, offset, previous, entries left). *)
Fixpoint enc_blocks (fuel : nat) (w : N) (prev : N) (es : list N) (off : nat) (buf : list N) : res (list N * nat * N * list N) :=
  match fuel with
  | 0 => Panic
  | S f =>
    if 8 <=? length es then
      let blk := firstn 8 es in
      let* t := on_tail off buf (fun t => pack_block8 (deltas prev blk) t w) in
      enc_blocks f w (last blk prev) (skipn 8 es) (off + N.to_nat w) (firstn off buf ++ t)
    else Ok (buf, off, prev, es)
  end.

(** encoder.go:127-136: the remaining deltas, packed into bytes[offset:]. *)
Fixpoint enc_rest (w : nat) (prev : N) (es : list N) (idx boff : nat) (t : list N) : option (list N) :=
  match es with
  | [] => Some t
  | e :: r => do x <- pack_bits (sub64 e prev) w t idx boff ; let '(t', idx', boff') := x in enc_rest w e r idx' boff' t'
  end.

(** encoder.go:72-139 encodeVersion4 on a buffer of [compressed_size] zeros. *)
Definition encode_v4 (s : sketch) (w nb : N) : res (list N) :=
  let n := u32 (N.of_nat (length (sk_entries s))) in
  let hdr :=
    let buf := repeat 0%N (compressed_size s w nb) in
    do buf <- wr 0 (N.of_nat (preamble_longs s true)) buf ;
    do buf <- wr 1 4%N buf ;
    do buf <- wr 2 3%N buf ;
    do buf <- wr 3 w buf ;
    do buf <- wr 4 nb buf ;
    do buf <- wr 5 (2 ^ 3 + 2 ^ 1 + 2 ^ 4)%N buf ;
    do buf <- put_le 2 6 (sk_seed s) buf ;
    do buf_off <- (if est s then do buf <- put_le 8 8 (sk_theta s) buf ; Some (buf, 16) else Some (buf, 8)) ;
    let '(buf, off) := buf_off in
    do buf <- put_le (N.to_nat nb) off n buf ;
    Some (buf, off + N.to_nat nb) in
  let* x := of_opt hdr in
  let '(buf, off) := x in
  let* y := enc_blocks (S (length (sk_entries s))) w 0%N (sk_entries s) off buf in
  let '(buf, off, prev, es) := y in
  let* t := on_tail off buf (fun t => of_opt (enc_rest (N.to_nat w) prev es 0 0 t)) in
  Ok (firstn off buf ++ t).

(** encoder.go:39-70 Encode(sketch): MarshalBinary is [encode false]. *)
Definition encode (compressed : bool) (s : sketch) : res (list N) :=
  if compressed && suitable s then encode_v4 s (entry_bits s) (num_entries_bytes s) else of_opt (encode_plain s).

(** ** Decoder *)
Record csd := mkCsd { d_theta : N; d_start : nat; d_num : N; d_seed : N; d_bits : N; d_empty : bool; d_ordered : bool }.

(** decoder.go validateMemorySize. *)
Definition need (buf : list N) (n : nat) : res unit := if length buf <? n then Err else Ok tt.
Definition check_seed (want : option N) (h : N) : res unit :=
  match want with None => Err | Some x => if (h =? x)%N then Ok tt else Err end.
(** binary.LittleEndian.UintX(bytes[off:]); bytes[i]. *)
Definition rd (k off : nat) (buf : list N) : res N := of_opt (get_le k off buf).
Definition at_ (i : nat) (buf : list N) : res N := of_opt (nth_error buf i).

(** decoder.go:178-183: numEntries |= uint32(b) << (i << 3) with i of type uint8. *)
Fixpoint read_num (k : nat) (i : N) (off : nat) (buf : list N) (acc : N) : res N :=
  match k with
  | 0 => Ok acc
  | S k' => let* b := at_ off buf in
            read_num k' (i + 1) (off + 1) buf (N.lor acc (u32 (N.shiftl b (u8 (8 * i)))))
  end.

(** decoder.go:148-205 decodeVersion4. *)
Definition decode_v4 (want : option N) (buf : list N) : res csd :=
  let* sh := rd 2 6 buf in
  let* _ := check_seed want sh in
  let* pre := at_ 0 buf in
  let has := (1 <? pre)%N in
  let* theta := (if has then let* _ := need buf 16 in rd 8 8 buf else Ok MaxTheta) in
  let* nb := at_ 4 buf in
  let off := if has then 16 else 8 in
  let* _ := need buf (off + N.to_nat nb) in
  let* n := read_num (N.to_nat nb) 0 off buf 0%N in
  let off := off + N.to_nat nb in
  let* w := at_ 3 buf in
  let* _ := need buf (off + N.to_nat (whole_bytes (w * n))) in
  Ok (mkCsd theta off n sh w false true).

(** decoder.go:207-280 decodeVersion3. *)
Definition decode_v3 (want : option N) (buf : list N) : res csd :=
  let* sh := rd 2 6 buf in
  let* fl := at_ 5 buf in
  if N.testbit fl 2 then Ok (mkCsd MaxTheta 0 0 sh 64 true true) else
  let* _ := check_seed want sh in
  let* pre := at_ 0 buf in
  let has := (2 <? pre)%N in
  let* theta := (if has then let* _ := need buf 24 in rd 8 16 buf else Ok MaxTheta) in
  if (pre =? 1)%N then let* _ := need buf 16 in Ok (mkCsd theta 8 1 sh 64 false true) else
  let* n := rd 4 8 buf in
  let start := if has then 3 else 2 in
  let* _ := need buf ((start + N.to_nat n) * 8) in
  Ok (mkCsd theta (start * 8) n sh 64 false (N.testbit fl 4)).

(** decoder.go:282-369 decodeVersion2. *)
Definition decode_v2 (want : option N) (buf : list N) : res csd :=
  let* pre := at_ 0 buf in
  let* sh := rd 2 6 buf in
  let* _ := check_seed want sh in
  if (pre =? 1)%N then Ok (mkCsd MaxTheta 0 0 sh 64 true true) else
  if (pre =? 2)%N then
    let* n := rd 4 8 buf in
    if (n =? 0)%N then Ok (mkCsd MaxTheta 0 0 sh 64 true true) else
    let* _ := need buf ((2 + N.to_nat n) * 8) in
    Ok (mkCsd MaxTheta 16 n sh 64 false true)
  else if (pre =? 3)%N then
    let* n := rd 4 8 buf in
    let* theta := rd 8 16 buf in
    if (n =? 0)%N && (theta =? MaxTheta)%N then Ok (mkCsd theta 0 0 sh 64 true true) else
    let* _ := need buf ((3 + N.to_nat n) * 8) in
    Ok (mkCsd theta 24 n sh 64 false true)
  else Err.

(** decoder.go:371-408 decodeVersion1. *)
Definition decode_v1 (want : option N) (buf : list N) : res csd :=
  let* sh := match want with None => Err | Some x => Ok x end in
  let* n := rd 4 8 buf in
  let* theta := rd 8 16 buf in
  if (n =? 0)%N && (theta =? MaxTheta)%N then Ok (mkCsd theta 0 0 sh 64 true true) else
  let* _ := need buf ((3 + N.to_nat n) * 8) in
  Ok (mkCsd theta 24 n sh 64 false true).

(** decoder.go:123-146 decodeCompactSketch. *)
Definition decode_data (want : option N) (buf : list N) : res csd :=
  let* _ := need buf 8 in
  let* fam := at_ 2 buf in
  if negb (fam =? 3)%N then Err else
  let* ver := at_ 1 buf in
  if (ver =? 4)%N then decode_v4 want buf
  else if (ver =? 3)%N then decode_v3 want buf
  else if (ver =? 2)%N then decode_v2 want buf
  else if (ver =? 1)%N then decode_v1 want buf
  else Err.

(** decoder.go:58-63: the 64-bit entries. *)
Fixpoint read_entries (n : nat) (off : nat) (buf : list N) : res (list N) :=
  match n with 0 => Ok [] | S n' => let* e := rd 8 off buf in let* r := read_entries n' (off + 8) buf in Ok (e :: r) end.

(** decoder.go:75-84: blocks of eight deltas. [n] entries are left; returns (deltas so far, ptr). *)
Fixpoint dec_blocks (fuel : nat) (w : N) (n : nat) (ptr : list N) : res (list N * nat * list N) :=
  match fuel with
  | 0 => Panic
  | S f =>
    if 8 <=? n then
      let* vs := unpack_block8 (repeat 0%N 8) ptr w in
      let* p := of_opt (if N.to_nat w <=? length ptr then Some (skipn (N.to_nat w) ptr) else None) in
      let* x := dec_blocks f w (n - 8) p in
      let '(ds, n', p') := x in Ok (vs ++ ds, n', p')
    else Ok ([], n, ptr)
  end.
(** decoder.go:86-92. *)
Fixpoint dec_rest (w : nat) (n : nat) (ptr : list N) (idx boff : nat) : res (list N) :=
  match n with
  | 0 => Ok []
  | S n' => let* x := of_opt (unpack_bits w ptr idx boff) in
            let '(v, idx', boff') := x in
            let* r := dec_rest w n' ptr idx' boff' in Ok (v :: r)
  end.
(** decoder.go:94-99. *)
Fixpoint undelta (prev : N) (ds : list N) : list N := match ds with [] => [] | d :: r => let e := add64 d prev in e :: undelta e r end.

(** compact_sketch.go newCompactSketchFromEntries. *)
Definition from_entries (d : csd) (es : list N) : sketch :=
  mkSketch es (d_theta d) (d_seed d) (d_empty d) (if length es <=? 1 then true else d_ordered d).

(** decoder.go:51-110 Decode(bytes, seed). *)
Definition decode (want : option N) (buf : list N) : res sketch :=
  let* d := decode_data want buf in
  if (d_bits d =? 64)%N then let* es := read_entries (N.to_nat (d_num d)) (d_start d) buf in Ok (from_entries d es)
  else
    let* ptr := of_opt (if d_start d <=? length buf then Some (skipn (d_start d) buf) else None) in
    let* x := dec_blocks (S (N.to_nat (d_num d))) (d_bits d) (N.to_nat (d_num d)) ptr in
    let '(ds, n, p) := x in
    let* r := dec_rest (N.to_nat (d_bits d)) n p 0 0 in
    Ok (from_entries d (undelta 0%N (ds ++ r))).

(** ** wrapped_compact_sketch.go *)
(** :127-167 All(): blocks of eight; [bidx] is bytesIdx; the unpacked values are accumulated and yielded. *)
Fixpoint wrap_blocks (fuel : nat) (w : N) (n : nat) (bytes : list N) (bidx : nat) (prev : N) : res (list N * nat * nat * N) :=
  match fuel with
  | 0 => Panic
  | S f =>
    if 8 <=? n then
      let* vs := on_tail bidx bytes (fun t => match unpack_block8 (repeat 0%N 8) t w with Err => Panic | r => r end) in
      let es := undelta prev vs in
      let* x := wrap_blocks f w (n - 8) bytes (bidx + N.to_nat w) (last es prev) in
      let '(r, n', b', p') := x in Ok (es ++ r, n', b', p')
    else Ok ([], n, bidx, prev)
  end.
Fixpoint wrap_rest (w : nat) (n : nat) (bytes : list N) (idx boff : nat) (prev : N) : res (list N) :=
  match n with
  | 0 => Ok []
  | S n' => let* x := of_opt (unpack_bits w bytes idx boff) in
            let '(v, idx', boff') := x in
            let e := add64 v prev in
            let* r := wrap_rest w n' bytes idx' boff' e in Ok (e :: r)
  end.
(** :108-167 All() of a wrapped sketch, run to the end. *)
Definition wrapped_all (d : csd) (buf : list N) : res (list N) :=
  if (d_bits d =? 64)%N then read_entries (N.to_nat (d_num d)) (d_start d) buf
  else
    let* bytes := of_opt (if d_start d <=? length buf then Some (skipn (d_start d) buf) else None) in
    let* x := wrap_blocks (S (N.to_nat (d_num d))) (d_bits d) (N.to_nat (d_num d)) bytes 0 0%N in
    let '(es, n, b, p) := x in
    let* r := wrap_rest (N.to_nat (d_bits d)) n bytes b 0 p in
    Ok (es ++ r).
