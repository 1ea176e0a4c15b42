(** * Model of filters/ (Bloom filter).

    Hashing (XXHash64, filters/bloom_filter.go:144-196) is the parameter [hashes seed x]: [Some (h0,h1)] for a
    hashed item, [None] for the items the API ignores (empty string, nil/empty array:
    bloom_filter.go:264, 320, 374, 416, ...).  Words of the bit array are [N] values below 2^64.
    [None] results stand for a Go panic or, for the hash loop, for non-termination. *)
From Verif Require Import Base Bytes.
Local Open Scope nat_scope.

Definition w64 (x : N) : N := (x mod 2 ^ 64)%N.

(** filters/bloom_filter.go:84-91 bloomFilterImpl. *)
Record bloom := mkBloom {
  bf_seed : N;
  bf_hashes : N;
  bf_dirty : bool;
  bf_cap : N;
  bf_nset : N;
  bf_bits : list N;
}.

(** bit_array.go:23-27 getBit. *)
Definition get_bit (a : list N) (i : N) : option bool :=
  match nth_error a (N.to_nat (N.shiftr i 6)) with
  | None => None
  | Some w => Some (negb (N.land w (N.shiftl 1 (N.land i 63)) =? 0)%N)
  end.

(** bit_array.go:30-34 setBit. *)
Definition set_bit (a : list N) (i : N) : option (list N) :=
  let l := N.to_nat (N.shiftr i 6) in
  match nth_error a l with
  | None => None
  | Some w => Some (upd l (N.lor w (N.shiftl 1 (N.land i 63))) a)
  end.

(** bit_array.go:53-60 getAndSetBit. *)
Definition get_and_set_bit (a : list N) (i : N) : option (list N * bool) :=
  let l := N.to_nat (N.shiftr i 6) in
  match nth_error a l with
  | None => None
  | Some w => let mask := N.shiftl 1 (N.land i 63) in
              Some (upd l (N.lor w mask) a, negb (N.land w mask =? 0)%N)
  end.

(** math/bits.OnesCount64. *)
Definition ones_count (w : N) : N := N.of_nat (length (filter (N.testbit w) (map N.of_nat (seq 0 64)))).

(** bit_array.go:63-69 countBitsSet. *)
Definition count_bits_set (a : list N) : N := fold_left (fun c v => c + ones_count v)%N a 0%N.

(** bit_array.go:73-80 unionWith: panics when source is shorter. *)
Fixpoint union_with (t s : list N) : option (list N) :=
  match t, s with
  | [], _ => Some []
  | x :: t', y :: s' => match union_with t' s' with None => None | Some r => Some (N.lor x y :: r) end
  | _ :: _, [] => None
  end.
(** bit_array.go:84-91 intersect. *)
Fixpoint intersect_with (t s : list N) : option (list N) :=
  match t, s with
  | [], _ => Some []
  | x :: t', y :: s' => match intersect_with t' s' with None => None | Some r => Some (N.land x y :: r) end
  | _ :: _, [] => None
  end.
(** bit_array.go:95-102 invert (^ on uint64). *)
Definition invert_bits (a : list N) : list N := map (fun w => N.lxor w (N.ones 64)) a.

(** bloom_filter.go:102-108 BitsUsed: (new state, value). *)
Definition bits_used (f : bloom) : bloom * N :=
  if bf_dirty f
  then let c := count_bits_set (bf_bits f) in
       (mkBloom (bf_seed f) (bf_hashes f) false (bf_cap f) c (bf_bits f), c)
  else (f, bf_nset f).

(** bloom_filter.go:96-98 IsEmpty. *)
Definition is_empty (f : bloom) : bloom * bool := let (f', c) := bits_used f in (f', (c =? 0)%N).

(** bloom_filter.go:126-133 Reset. *)
Definition bf_reset (f : bloom) : bloom :=
  mkBloom (bf_seed f) (bf_hashes f) false (bf_cap f) 0 (map (fun _ => 0%N) (bf_bits f)).

(** bloom_filter.go:137-141 IsCompatible. *)
Definition compatible (f g : bloom) : bool :=
  (bf_seed f =? bf_seed g)%N && (bf_hashes f =? bf_hashes g)%N && (bf_cap f =? bf_cap g)%N.

(** bloom_filter.go:199-201 getHashIndex (uint64 arithmetic; % by zero panics). *)
Definition hash_index (f : bloom) (h0 h1 i : N) : option N :=
  if (bf_cap f =? 0)%N then None
  else Some (N.shiftr (w64 (h0 + i * h1)) 1 mod bf_cap f)%N.

(** The loop header [for i := uint16(1); i <= numHashes; i++]: i wraps at 2^16. *)
Definition u16_next (i : N) : N := ((i + 1) mod 2 ^ 16)%N.

(** bloom_filter.go:204-213 internalUpdate: bits and numBitsSet. *)
Fixpoint update_loop (fuel : nat) (f : bloom) (h0 h1 i : N) (a : list N) (n : N) : option (list N * N) :=
  match fuel with
  | 0 => None
  | S fu =>
    if (i <=? bf_hashes f)%N then
      match hash_index f h0 h1 i with
      | None => None
      | Some idx =>
        match get_bit a idx with
        | None => None
        | Some true => update_loop fu f h0 h1 (u16_next i) a n
        | Some false => match set_bit a idx with
                        | None => None
                        | Some a' => update_loop fu f h0 h1 (u16_next i) a' (w64 (n + 1))
                        end
        end
      end
    else Some (a, n)
  end.

Definition hash_fuel (f : bloom) : nat := S (N.to_nat (bf_hashes f)).

Definition internal_update (f : bloom) (h0 h1 : N) : option bloom :=
  match update_loop (hash_fuel f) f h0 h1 1 (bf_bits f) (bf_nset f) with
  | None => None
  | Some (a, n) => Some (mkBloom (bf_seed f) (bf_hashes f) true (bf_cap f) n a)
  end.

(** bloom_filter.go:216-227 internalQuery. *)
Fixpoint query_loop (fuel : nat) (f : bloom) (h0 h1 i : N) : option bool :=
  match fuel with
  | 0 => None
  | S fu =>
    if (i <=? bf_hashes f)%N then
      match hash_index f h0 h1 i with
      | None => None
      | Some idx =>
        match get_bit (bf_bits f) idx with
        | None => None
        | Some true => query_loop fu f h0 h1 (u16_next i)
        | Some false => Some false
        end
      end
    else Some true
  end.

Definition internal_query (f : bloom) (h0 h1 : N) : option (bloom * bool) :=
  let (f', e) := is_empty f in
  if e then Some (f', false)
  else match query_loop (hash_fuel f') f' h0 h1 1 with None => None | Some b => Some (f', b) end.

(** bloom_filter.go:231-245 internalQueryAndUpdate. *)
Fixpoint qu_loop (fuel : nat) (f : bloom) (h0 h1 i : N) (a : list N) (ex : bool) (new : N) : option (list N * bool * N) :=
  match fuel with
  | 0 => None
  | S fu =>
    if (i <=? bf_hashes f)%N then
      match hash_index f h0 h1 i with
      | None => None
      | Some idx =>
        match get_and_set_bit a idx with
        | None => None
        | Some (a', was) => qu_loop fu f h0 h1 (u16_next i) a' (ex && was) (if was then new else (new + 1)%N)
        end
      end
    else Some (a, ex, new)
  end.

Definition internal_query_and_update (f : bloom) (h0 h1 : N) : option (bloom * bool) :=
  match qu_loop (hash_fuel f) f h0 h1 1 (bf_bits f) true 0 with
  | None => None
  | Some (a, ex, new) => Some (mkBloom (bf_seed f) (bf_hashes f) true (bf_cap f) (w64 (bf_nset f + new)) a, ex)
  end.

(** bloom_filter.go:523-534 Union, :538-549 Intersect (the error leaves the receiver unchanged). *)
Definition bf_union (f g : bloom) : option (bloom * bool) :=
  if compatible f g then
    match union_with (bf_bits f) (bf_bits g) with
    | None => None
    | Some a => Some (mkBloom (bf_seed f) (bf_hashes f) false (bf_cap f) (count_bits_set a) a, true)
    end
  else Some (f, false).
Definition bf_intersect (f g : bloom) : option (bloom * bool) :=
  if compatible f g then
    match intersect_with (bf_bits f) (bf_bits g) with
    | None => None
    | Some a => Some (mkBloom (bf_seed f) (bf_hashes f) false (bf_cap f) (count_bits_set a) a, true)
    end
  else Some (f, false).

(** bloom_filter.go:553-557 Invert. *)
Definition bf_invert (f : bloom) : bloom :=
  let a := invert_bits (bf_bits f) in
  mkBloom (bf_seed f) (bf_hashes f) false (bf_cap f) (count_bits_set a) a.

(** bloom_filter_builder.go:273-275 roundCapacity, :29 maxBits (MaxPreLongs = 4), :53-87 NewBloomFilterBySize. *)
Definition round_capacity (n : N) : N := N.ldiff (n + 63) 63.
Definition max_bits : N := ((2 ^ 31 - 1 - 4) * 64)%N.
Definition new_bloom (numBits numHashes seed : N) : option bloom :=
  if (numBits =? 0)%N then None
  else if (numHashes =? 0)%N then None
  else if (max_bits <? numBits)%N then None
  else let cap := round_capacity numBits in
       Some (mkBloom seed numHashes false cap 0 (repeat 0%N (N.to_nat (cap / 64)))).

(** The exported Update*/Query*/QueryAndUpdate* methods. *)
Section API.
  Context {Item : Type}.
  Variable hashes : N -> Item -> option (N * N).

  Definition bf_update (f : bloom) (x : Item) : option bloom :=
    match hashes (bf_seed f) x with None => Some f | Some (h0, h1) => internal_update f h0 h1 end.
  Definition bf_query (f : bloom) (x : Item) : option (bloom * bool) :=
    match hashes (bf_seed f) x with None => Some (f, false) | Some (h0, h1) => internal_query f h0 h1 end.
  Definition bf_query_and_update (f : bloom) (x : Item) : option (bloom * bool) :=
    match hashes (bf_seed f) x with None => Some (f, false) | Some (h0, h1) => internal_query_and_update f h0 h1 end.
End API.

(** ** Serialization: preamble_utils.go offsets and bloom_filter.go:560-600 ToCompactSlice. *)
Definition insert_u8 (off : nat) (v : N) (b : list N) := put_le 1 off v b.

Fixpoint put_words (off : nat) (ws : list N) (b : list N) : option (list N) :=
  match ws with [] => Some b | w :: r => do b' <- put_le 8 off w b; put_words (off + 8) r b' end.

Definition to_slice (f0 : bloom) : option (list N) :=
  let (f, e) := is_empty f0 in
  let size := if e then 24 else 32 + length (bf_bits f) * 8 in
  let b := repeat 0%N size in
  do b <- insert_u8 0 (if e then 3 else 4) b;               (* preamble longs *)
  do b <- insert_u8 1 1 b;                                   (* serVer *)
  do b <- insert_u8 2 21 b;                                  (* family *)
  do b <- insert_u8 3 (if e then 4 else 0) b;                (* flags *)
  do b <- put_le 2 4 (bf_hashes f) b;
  do b <- put_le 8 8 (bf_seed f) b;
  do b <- put_le 4 16 (N.of_nat (length (bf_bits f)) mod 2 ^ 32) b;
  if e then Some b
  else
    do b <- put_le 8 24 (snd (bits_used f)) b;
    put_words 32 (bf_bits f) b.

Fixpoint get_words (n off : nat) (b : list N) : option (list N) :=
  match n with 0 => Some [] | S n' => do w <- get_le 8 off b; do r <- get_words n' (off + 8) b; Some (w :: r) end.

(** bloom_filter_builder.go:182-270 NewBloomFilterFromSlice. *)
Definition from_slice (b : list N) : option bloom :=
  if length b <? 24 then None else
  do pl <- get_le 1 0 b; do sv <- get_le 1 1 b; do fid <- get_le 1 2 b; do flags <- get_le 1 3 b;
  do nh <- get_le 2 4 b; do seed <- get_le 8 8 b; do len <- get_le 4 16 b;
  if negb (sv =? 1)%N then None else
  if negb (fid =? 21)%N then None else
  let e := negb (N.land flags 4 =? 0)%N in
  if negb (pl =? (if e then 3 else 4))%N then None else
  if (nh =? 0)%N then None else
  let cap := (len * 64)%N in
  let n := N.to_nat len in
  if e then
    if length b =? 24 then Some (mkBloom seed nh false cap 0 (repeat 0%N n)) else None
  else
    if negb (length b =? 32 + n * 8) then None else
    do ns <- get_le 8 24 b;
    do ws <- get_words n 32 b;
    Some (mkBloom seed nh false cap (if (ns =? 2 ^ 64 - 1)%N then count_bits_set ws else ns) ws).
