(** * Model of the byte and string forms of the frequency sketches
    (frequencies/preamble_utils.go, longs_sketch.go, items_sketch.go, reverse_purge_long_hash_map.go). *)
From Verif Require Import Base Bytes GoInt BitPackModel FreqModel ItemSerdeModel.
Local Open Scope nat_scope.

(** ** The preamble *)

(** preamble_utils.go:56-94 insertPreLongs ... insertActiveItems: bits [shift, shift + width) of a word are replaced. *)
Definition insert_bits (shift mask v pre : N) : N :=
  N.lor (N.shiftl (N.land v mask) shift) (N.ldiff pre (N.shiftl mask shift)).
(** preamble_utils.go:96-134 extractPreLongs ... extractActiveItems. *)
Definition extract_bits (shift mask pre : N) : N := N.land (N.shiftr pre shift) mask.
Definition insert_pre_longs := insert_bits 0 63.
Definition insert_ser_ver := insert_bits 8 255.
Definition insert_family := insert_bits 16 255.
Definition insert_lg_max := insert_bits 24 255.
Definition insert_lg_cur := insert_bits 32 255.
Definition insert_flags := insert_bits 40 255.
Definition insert_active := insert_bits 0 4294967295.
Definition extract_pre_longs := extract_bits 0 63.
Definition extract_ser_ver := extract_bits 8 255.
Definition extract_family := extract_bits 16 255.
Definition extract_lg_max := extract_bits 24 255.
Definition extract_lg_cur := extract_bits 32 255.
Definition extract_flags := extract_bits 40 255.
Definition extract_active := extract_bits 0 4294967295.

(** preamble_utils.go:43-54 checkPreambleSize *)
Definition check_preamble_size (b : list N) : res N :=
  if length b <? 8 then Err
  else
    let* pre0 := of_opt (get_le 8 0 b) in
    if length b <? Nat.max (8 * N.to_nat (N.land pre0 63)) 8 then Err else Ok pre0.

(** longs_sketch.go:500-506, items_sketch.go:475-485: the first long; family 10, serial version 1, empty flags 5. *)
Definition pre0_of (preLongs lgMax lgCur : nat) (empty : bool) : N :=
  insert_flags (if empty then 5 else 0)%N
    (insert_lg_cur (N.of_nat lgCur) (insert_lg_max (N.of_nat lgMax) (insert_family 10 (insert_ser_ver 1 (insert_pre_longs (N.of_nat preLongs) 0))))).

Section Slice.
Context {K : Type}.
Variable keqb : K -> K -> bool.
Variable zeroK : K.
Variable hash : K -> N.
Variable dlimit : nat.
Variables del_limited incl : bool.
Notation sketchK := (@sketch K).
Notation update_all := (update_all keqb zeroK hash dlimit del_limited incl).

(** ToSlice up to the counts (longs_sketch.go:488-528, items_sketch.go:454-507): preamble longs, counts, then room for the
    [keyBytes] bytes of the keys. *)
Definition slice_head (s : sketchK) (keyBytes : nat) : res (list N) :=
  let n := m_active (s_map s) in
  if is_empty s then of_opt (put_le 8 0 (pre0_of 1 (s_lgmax s) (m_lg (s_map s)) true) (repeat 0%N 8))
  else
    let vals := map (fun c => to_u64 (vl c)) (filter active (m_slots (s_map s))) in
    let* b := of_opt (fixed_ser_loop 8 0 [pre0_of 4 (s_lgmax s) (m_lg (s_map s)) false;
                                          insert_active (N.of_nat n) 0; to_u64 (s_weight s); to_u64 (s_off s)]
                        (repeat 0%N (8 * (4 + n) + keyBytes))) in
    if length vals <? n then Panic else of_opt (fixed_ser_loop 8 32 (firstn n vals) b).

(** NewLongsSketchFromSlice (longs_sketch.go:101-137) and NewFrequencyItemsSketchFromSlice (items_sketch.go:112-153) up to the
    keys.  A set empty flag gives [EmptyImage]; otherwise the fields and the counts, with [FullImage]'s keys left out.  [perKey] is
    the number of key bytes the length check asks for (8 for longs, none for items).
    preArr[3] of a one-long preamble is an index out of range.  1<<lgCur is a power of two for lgCur at most 62, otherwise newReversePurge...HashMap
    refuses it; sizes that exceed memory are not modelled.  A maximum of 2^63 cells or more, where the int arithmetic overflows, is
    not modelled either: the model refuses it. *)
Inductive head := HeadEmpty (lgMax : nat) | HeadFull (lgMax lgCur : nat) (weight off : Z) (vals : list Z).
Definition read_head (perKey : nat) (b : list N) : res head :=
  let* pre0 := check_preamble_size b in
  let preLongs := extract_pre_longs pre0 in
  let lgMax := N.to_nat (extract_lg_max pre0) in
  let lgCur := N.to_nat (extract_lg_cur pre0) in
  let empty := negb (N.land (extract_flags pre0) 5 =? 0)%N in
  if negb (preLongs =? 1)%N && negb (preLongs =? 4)%N then Err
  else if negb (extract_ser_ver pre0 =? 1)%N then Err
  else if negb (extract_family pre0 =? 10)%N then Err
  else if empty && negb (preLongs =? 1)%N then Err
  else if 62 <? lgMax then Err
  else if empty then Ok (HeadEmpty lgMax)
  else
    let* pre := of_opt (fixed_deser 8 b 0 (N.to_nat preLongs)) in
    if 62 <? lgCur then Err
    else
      let* off := of_opt (nth_error pre 3) in
      let* pre1 := of_opt (nth_error pre 1) in
      let* w := of_opt (nth_error pre 2) in
      let n := N.to_nat (extract_active pre1) in
      let preBytes := 8 * N.to_nat preLongs in
      if length b <? preBytes + 8 * n + perKey * n then Err
      else
        let* vals := of_opt (fixed_deser 8 b preBytes n) in
        Ok (HeadFull lgMax lgCur (wrap64 (Z.of_N w)) (wrap64 (Z.of_N off)) (map (fun v => wrap64 (Z.of_N v)) vals)).

(** The rest of the two constructors, given the empty sketch to fill (longs_sketch.go:160-172, items_sketch.go:172-185): UpdateMany on
    every pair, then the stream weight is overwritten.  An update that fails is an error. *)
Definition fill (s0 : sketchK) (w off : Z) (keys : list K) (vals : list Z) : res sketchK :=
  match update_all (mkSk (s_lgmax s0) (s_cap s0) off (s_weight s0) (s_sample s0) (s_map s0)) (combine keys vals) with
  | None => Err
  | Some s => Ok (mkSk (s_lgmax s) (s_cap s) (s_off s) w (s_sample s) (s_map s))
  end.

(** *** Items: [ser], [deser] stand for SerializeManyToSlice and DeserializeManyFromSlice(mem, 0, n). *)
Variable ser : list K -> res (list N).
Variable deser : list N -> nat -> res (list K).

(** items_sketch.go:454-507 ToSlice; copy writes at most the room there is. *)
Definition items_to_slice (s : sketchK) : res (list N) :=
  if is_empty s then slice_head s 0
  else
    let keys := map ky (filter active (m_slots (s_map s))) in
    let* kb := ser keys in
    let* b := slice_head s (length kb) in
    of_opt (put (32 + 8 * m_active (s_map s)) kb b).
(** items_sketch.go:112-186 *)
Definition items_from_slice (b : list N) : res sketchK :=
  let* h := read_head 0 b in
  match h with
  | HeadEmpty _ => Ok (new_items zeroK 3 3)
  | HeadFull lgMax lgCur w off vals =>
      let* keys := deser (skipn (32 + 8 * length vals) b) (length vals) in
      if length keys <? length vals then Panic
      else fill (new_items zeroK lgMax lgCur) w off keys vals
  end.
End Slice.

(** ** LongsSketch: keys are int64 *)
Section Longs.
Variable hash : Z -> N.
Notation sketchZ := (@sketch Z).

(** longs_sketch.go:488-535 ToSlice *)
Definition longs_to_slice (s : sketchZ) : res (list N) :=
  if is_empty s then slice_head s 0
  else
    let keys := map (fun c => to_u64 (ky c)) (filter active (m_slots (s_map s))) in
    let n := m_active (s_map s) in
    let* b := slice_head s (8 * n) in
    if length keys <? n then Panic else of_opt (fixed_ser_loop 8 (32 + 8 * n) (firstn n keys) b).
(** longs_sketch.go:101-173 NewLongsSketchFromSlice *)
Definition longs_from_slice (b : list N) : res sketchZ :=
  let* h := read_head 8 b in
  match h with
  | HeadEmpty lgMax => Ok (new_longs 0%Z lgMax 3)
  | HeadFull lgMax lgCur w off vals =>
      let n := length vals in
      let* keys := of_opt (fixed_deser 8 b (32 + 8 * n) n) in
      fill Z.eqb 0%Z hash 1024 true false (new_longs 0%Z lgMax lgCur) w off (map (fun v => wrap64 (Z.of_N v)) keys) vals
  end.

(** *** The string form.  A string is the list of its bytes. *)

(** %d of a non-negative number: its decimal digits. *)
Fixpoint digits (fuel : nat) (n : N) (acc : list N) : list N :=
  match fuel with
  | 0 => acc
  | S f => if (n <? 10)%N then (48 + n)%N :: acc else digits f (n / 10)%N ((48 + n mod 10)%N :: acc)
  end.
Definition show_N (n : N) : list N := digits (S (N.size_nat n)) n [].
Definition show_Z (z : Z) : list N := if (z <? 0)%Z then 45%N :: show_N (Z.to_N (- z)) else show_N (Z.to_N z).

(** strconv.ParseUint(s, 10, bits) *)
Fixpoint parse_digits (s : list N) (acc : N) : option N :=
  match s with
  | [] => Some acc
  | c :: r => if (48 <=? c)%N && (c <=? 57)%N then parse_digits r (10 * acc + (c - 48))%N else None
  end.
Definition parse_uint (bits : N) (s : list N) : option N :=
  match s with
  | [] => None
  | _ => do v <- parse_digits s 0; if (v <? 2 ^ bits)%N then Some v else None
  end.
(** strconv.ParseInt(s, 10, bits) *)
Definition parse_int (bits : N) (s : list N) : option Z :=
  let (neg, d) := match s with
                  | c :: r => if (c =? 45)%N then (true, r) else if (c =? 43)%N then (false, r) else (false, s)
                  | [] => (false, s)
                  end in
  do v <- parse_uint 64 d;
  if neg then (if (v <=? 2 ^ (bits - 1))%N then Some (- Z.of_N v)%Z else None)
  else (if (v <? 2 ^ (bits - 1))%N then Some (Z.of_N v) else None).

(** strings.Split(s, ","); [cur] is the current token, reversed. *)
Fixpoint split_comma (s cur : list N) : list (list N) :=
  match s with
  | [] => [rev cur]
  | c :: r => if (c =? 44)%N then rev cur :: split_comma r [] else split_comma r (c :: cur)
  end.

(** longs_sketch.go:470-486 ToString, reverse_purge_long_hash_map.go:170-181 serializeToString: every field is followed by a comma. *)
Definition string_fields (s : sketchZ) : list Z :=
  [1%Z; 10%Z; Z.of_nat (s_lgmax s); (if m_active (s_map s) =? 0 then 5%Z else 0%Z); s_weight s; s_off s;
   Z.of_nat (m_active (s_map s)); Z.of_nat (length (m_slots (s_map s)))]
  ++ flat_map (fun c => [ky c; vl c]) (filter (fun c => negb (st c =? 0)) (m_slots (s_map s))).
Definition longs_to_string (s : sketchZ) : list N := flat_map (fun z => show_Z z ++ [44%N]) (string_fields s).

Definition err {A} (o : option A) : res A := match o with Some a => Ok a | None => Err end.

(** reverse_purge_long_hash_map.go:288-305: the loop of deserializeFromStringArray. *)
Fixpoint put_tokens (n : nat) (tokens : list (list N)) (m : @hmap Z) : res hmap :=
  match n with
  | 0 => Ok m
  | S n' =>
      match tokens with
      | k :: v :: r =>
          let* k := err (parse_uint 64 k) in
          let* v := err (parse_uint 64 v) in
          let* m' := err (adjust_or_put Z.eqb hash 1024 m (wrap64 (Z.of_N k)) (wrap64 (Z.of_N v))) in
          put_tokens n' r m'
      | _ => Panic
      end
  end.
Definition pow2_lg (n : N) : option nat := if (2 ^ N.log2 n =? n)%N then Some (N.to_nat (N.log2 n)) else None.

(** longs_sketch.go:179-256 NewLongsSketchFromString.  The sketch made by NewLongsSketch keeps its parameters and gets the map read
    from the tokens.  As for bytes, a maximum of 2^63 cells or more is refused. *)
Definition longs_from_string (str : list N) : res sketchZ :=
  if length str <? 1 then Err
  else
    let str := if (last str 0 =? 44)%N then removelast str else str in
    let tokens := split_comma str [] in
    if length tokens <? 8 then Err
    else
      let tok i := nth i tokens [] in
      let* serVer := err (parse_int 32 (tok 0)) in
      let* fam := err (parse_int 32 (tok 1)) in
      let* lgMax := err (parse_int 32 (tok 2)) in
      let* flags := err (parse_int 32 (tok 3)) in
      let* w := err (parse_int 64 (tok 4)) in
      let* off := err (parse_int 64 (tok 5)) in
      let* numActive := err (parse_int 32 (tok 6)) in
      let* size := err (parse_uint 32 (tok 7)) in
      if negb (serVer =? 1)%Z then Err
      else if negb (fam =? 10)%Z then Err
      else if negb (0 <? flags)%Z && (numActive =? 0)%Z then Err
      else if negb (2 * numActive =? Z.of_nat (length tokens) - 6 - 2)%Z then Err
      else if (62 <? lgMax)%Z then Err
      else
        (* the map read back must have a power of two cells, also for NewLongsSketch(lgMax, TrailingZeros64(size)) *)
        let* lg := err (pow2_lg size) in
        let s0 := new_longs 0%Z (Z.to_nat lgMax) lg in
        let* m := put_tokens (Z.to_nat numActive) (skipn 8 tokens) (new_map 0%Z lg) in
        Ok (mkSk (s_lgmax s0) (s_cap s0) off w (s_sample s0) m).
End Longs.
