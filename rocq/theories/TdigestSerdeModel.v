(** * Model of tdigest/double_encoder.go and tdigest/double_decoder.go: the serialized form of a t-digest.

    A float64 is written as its 64 bits. [bits] stands for math.Float64bits and [of_bits], [of_bits32] for math.Float64frombits and
    math.Float32frombits; [to_u16], [to_u64] are the conversions uint16(f), uint64(f) of the compatibility format (implementation
    defined for NaN and values out of range). The theorems assume of them only what they say.

    Bytes are numbers below 256. A []byte shorter than an index expression needs is a Go panic: [Panic]. *)
From Verif Require Import Base Arr Bytes BitPackModel TdigestModel.
From Coq Require Import QArith.
Local Close Scope Q_scope.
Local Open Scope nat_scope.

Section Serde.
Variable ln : Q -> Q.
Variable bits : ext -> N.
Variable of_bits of_bits32 : N -> ext.
Variable to_u16 to_u64 : ext -> N.

(** double.go:559-561 isSingleValue. *)
Definition is_single (s : td) : bool := (total_weight s =? 1)%N.
(** double.go:552-557 preambleLongs. *)
Definition preamble_longs (s : td) : N := if is_empty s || is_single s then 1%N else 2%N.

(** compress(), when withBuffer is false. None: compress panics. *)
Definition settle (s : td) (with_buffer : bool) : option td := if with_buffer then Some s else compress ln s.

(** double.go:483-502 SerializedSizeBytes. The sketch after the call and the size. *)
Definition serialized_size (s : td) (with_buffer : bool) : option (td * nat) :=
  match settle s with_buffer with
  | None => None
  | Some s1 =>
      let size := N.to_nat (preamble_longs s1 * 8) in
      Some (s1, if is_empty s1 then size
                else if is_single s1 then size + 8
                else size + 16 + 16 * length (t_cs s1) + (if with_buffer then 8 * length (t_buf s1) else 0))
  end.

(** double_encoder.go:64-73, 146-156 the flags. *)
Definition flags_byte (s : td) : N :=
  N.lor (N.lor (if is_empty s then 1 else 0) (if is_single s then 2 else 0)) (if t_rev s then 4 else 0).

Definition enc_cents (cs : list cent) : list N := flat_map (fun c => le 8 (bits (Fin (c_mean c))) ++ le 8 (c_wt c)) cs.
Definition enc_vals (vs : list Q) : list N := flat_map (fun v => le 8 (bits (Fin v))) vs.

(** double_encoder.go:46-129, 139-199: the bytes both encoders write, in order. uint32(len(...)) drops the high bits, as [le 4] does. *)
Definition body (s : td) : list N :=
  [preamble_longs s; 1%N; 20%N] ++ le 2 (t_k s) ++ [flags_byte s; 0%N; 0%N] ++
  (if is_empty s then []
   else if is_single s then le 8 (bits (t_min s))
   else le 4 (N.of_nat (length (t_cs s))) ++ le 4 (N.of_nat (length (t_buf s))) ++ le 8 (bits (t_min s)) ++ le 8 (bits (t_max s)) ++
        enc_cents (t_cs s) ++ enc_vals (t_buf s)).

(** double_encoder.go:133-206 EncodeDouble: the sketch afterwards and the bytes. The buffer has SerializedSizeBytes bytes, and writing
    beyond it panics. *)
Definition encode (s : td) (with_buffer : bool) : res (td * list N) :=
  match settle s with_buffer with
  | None => Panic
  | Some s1 => match serialized_size s1 with_buffer with
               | None => Panic
               | Some (s2, n) => let b := body s2 in
                                 if length b <=? n then Ok (s2, b ++ repeat 0%N (n - length b)) else Panic
               end
  end.

(** double_encoder.go:42-129 DoubleEncoder.Encode, to a writer that does not fail. *)
Definition encode_stream (s : td) (with_buffer : bool) : res (td * list N) :=
  match settle s with_buffer with None => Panic | Some s1 => Ok (s1, body s1) end.

(** double.go:137-178 newDoubleFromInternalStates. *)
Definition from_states (rev : bool) (k : N) (mn mx : ext) (cs : list cent) (w : N) (buf : list Q) : res td :=
  if (k <? 10)%N then Err else Ok (mkTd mn mx cs buf w k rev).

(** double_decoder.go:582-594 validateNaN; validateNaN followed by validateInf. *)
Definition not_nan (e : ext) : res ext := match e with NaN => Err | _ => Ok e end.
Definition finite (e : ext) : res Q := match e with Fin q => Ok q | _ => Err end.

(** uint64 addition. *)
Definition add64 (a b : N) : N := ((a + b) mod 2 ^ 64)%N.

(** double_decoder.go:142-171 and 417-437: n centroids. [R k off] reads k bytes at off, little endian. *)
Fixpoint read_cents (R : nat -> nat -> res N) (n off : nat) (tot : N) : res (list cent * N) :=
  match n with
  | 0 => Ok ([], tot)
  | S n' =>
      let* m := R 8 off in
      let* q := finite (of_bits m) in
      let* w := R 8 (off + 8) in
      if (w =? 0)%N then Err
      else let* (cs, t) := read_cents R n' (off + 16) (add64 tot w) in Ok (mkC q w :: cs, t)
  end.

(** double_decoder.go:173-190 and 439-450: n buffered values. *)
Fixpoint read_vals (R : nat -> nat -> res N) (n off : nat) : res (list Q) :=
  match n with
  | 0 => Ok []
  | S n' => let* m := R 8 off in let* q := finite (of_bits m) in let* vs := read_vals R n' (off + 8) in Ok (q :: vs)
  end.

(** data[off:] of at least k bytes, else a panic; little and big endian. *)
Definition rd (data : list N) (k off : nat) : res N := of_opt (get_le k off data).
Definition rd_be (data : list N) (k off : nat) : res N :=
  match slice off k data with Some bs => Ok (unle (rev bs)) | None => Panic end.

(** double_decoder.go:461-580 decodeDoubleCompat, the centroid loops: 501-521 (width 8) and 556-577 (width 4). *)
Fixpoint read_compat (data : list N) (width : nat) (ofb : N -> ext) (n off : nat) (tot : N) : res (list cent * N) :=
  match n with
  | 0 => Ok ([], tot)
  | S n' =>
      let* wb := rd_be data width off in
      let w := ofb wb in
      if match w with Fin q => Qeq_bool q 0 | _ => false end then Err
      else
        let* mb := rd_be data width (off + width) in
        let* q := finite (ofb mb) in
        let* (cs, t) := read_compat data width ofb n' (off + 2 * width) (add64 tot (to_u64 w)) in
        Ok (mkC q (to_u64 w) :: cs, t)
  end.

(** double_decoder.go:461-580 decodeDoubleCompat. *)
Definition decode_compat (data : list N) : res td :=
  if length data <? 1 then Err
  else
    let* ty := rd data 1 0 in
    if (ty =? 1)%N then
      if length data <? 1 + 28 then Err
      else
        let* mn := rd_be data 8 1 in let* mn := not_nan (of_bits mn) in
        let* mx := rd_be data 8 9 in let* mx := not_nan (of_bits mx) in
        let* kb := rd_be data 8 17 in
        let* nc := rd_be data 4 25 in
        if (N.of_nat (length data) <? 29 + nc * 16)%N then Err
        else let* (cs, t) := read_compat data 8 of_bits (N.to_nat nc) 29 0 in
             from_states false (to_u16 (of_bits kb)) mn mx cs t []
    else if (ty =? 2)%N then
      if length data <? 1 + 24 then Err
      else
        let* mn := rd_be data 8 1 in let* mn := not_nan (of_bits mn) in
        let* mx := rd_be data 8 9 in let* mx := not_nan (of_bits mx) in
        let* kb := rd_be data 4 17 in
        let* nc := rd_be data 2 25 in
        if (N.of_nat (length data) <? 27 + nc * 8)%N then Err
        else let* (cs, t) := read_compat data 4 of_bits32 (N.to_nat nc) 27 0 in
             from_states false (to_u16 (of_bits32 kb)) mn mx cs t []
    else Err.

(** double_decoder.go:330-459 DecodeDouble. *)
Definition decode (data : list N) : res td :=
  if length data <? 8 then Err
  else
    let* pre := rd data 1 0 in
    let* ver := rd data 1 1 in
    let* ty := rd data 1 2 in
    if negb (ty =? 20)%N then
      if ((pre =? 0) && (ver =? 0) && (ty =? 0))%N then decode_compat (skipn 3 data) else Err
    else if negb (ver =? 1)%N then Err
    else
      let* k := rd data 2 3 in
      let* fl := rd data 1 5 in
      let emp := N.testbit fl 0 in let single := N.testbit fl 1 in let rv := N.testbit fl 2 in
      if negb (pre =? (if emp || single then 1 else 2))%N then Err
      else if emp then match td_new k with Some s => Ok s | None => Err end
      else if single then
        if length data <? 16 then Err
        else let* b := rd data 8 8 in
             let* v := finite (of_bits b) in
             from_states rv k (Fin v) (Fin v) [mkC v 1] 1 []
      else if length data <? 16 then Err
      else
        let* nc := rd data 4 8 in
        let* nb := rd data 4 12 in
        if (N.of_nat (length data) <? 16 + 16 + nc * 16 + nb * 8)%N then Err
        else
          let* mn := rd data 8 16 in let* mn := not_nan (of_bits mn) in
          let* mx := rd data 8 24 in let* mx := not_nan (of_bits mx) in
          let* (cs, t) := read_cents (rd data) (N.to_nat nc) 32 0 in
          let* vs := read_vals (rd data) (N.to_nat nb) (32 + 16 * N.to_nat nc) in
          from_states rv k mn mx cs t vs.

(** A stream of the bytes [data]: binary.Read of k bytes fails when fewer are left. *)
Definition rds (data : list N) (k off : nat) : res N := match get_le k off data with Some v => Ok v | None => Err end.

(** double_decoder.go:46-193 DoubleDecoder.Decode. The compatibility format (195-327) is left out: [compat]. Line 135 checks minVal a
    second time instead of maxVal. *)
Definition decode_stream (compat : list N -> res td) (data : list N) : res td :=
  let* pre := rds data 1 0 in
  let* ver := rds data 1 1 in
  let* ty := rds data 1 2 in
  if negb (ty =? 20)%N then
    if ((pre =? 0) && (ver =? 0) && (ty =? 0))%N then compat (skipn 3 data) else Err
  else if negb (ver =? 1)%N then Err
  else
    let* k := rds data 2 3 in
    let* fl := rds data 1 5 in
    let emp := N.testbit fl 0 in let single := N.testbit fl 1 in let rv := N.testbit fl 2 in
    if negb (pre =? (if emp || single then 1 else 2))%N then Err
    else
      let* _ := rds data 2 6 in
      if emp then match td_new k with Some s => Ok s | None => Err end
      else if single then
        let* b := rds data 8 8 in
        let* v := finite (of_bits b) in
        from_states rv k (Fin v) (Fin v) [mkC v 1] 1 []
      else
        let* nc := rds data 4 8 in
        let* nb := rds data 4 12 in
        let* mnb := rds data 8 16 in let* mn := not_nan (of_bits mnb) in
        let* mxb := rds data 8 24 in let* _ := not_nan (of_bits mnb) in
        let* (cs, t) := read_cents (rds data) (N.to_nat nc) 32 0 in
        let* vs := read_vals (rds data) (N.to_nat nb) (32 + 16 * N.to_nat nc) in
        from_states rv k mn (of_bits mxb) cs t vs.

End Serde.
