(** * internal/murmur3.go: the 128-bit Murmur3 hash behind the theta, tuple, CPC and count-min sketches.

    A Go uint64 is an [N] below 2^64 with explicit wraparound; a byte is an [N] below 256; an int32 or an
    int64 is a [Z] in its range; an int (offset, length, loop index) is a [nat], so that overflow of an int
    is not modelled.  [None] is a panic (an index out of range). *)
From Verif Require Import Base Bytes.
Local Open Scope nat_scope.

(** The wraparound of uint64 arithmetic. *)
Definition u64 (x : N) : N := (x mod 2 ^ 64)%N.
Definition mul64 (x y : N) : N := u64 (x * y).
Definition add64 (x y : N) : N := u64 (x + y).
Definition shl64 (x : N) (k : N) : N := u64 (N.shiftl x k).

(** murmur3.go:20-23 *)
Definition C1 : N := 0x87c37b91114253d5.
Definition C2 : N := 0x4cf5ad432745937f.

(** murmur3.go:169-175 mixK1 *)
Definition mixK1 (k1 : N) : N :=
  let k1 := mul64 k1 C1 in
  let k1 := N.lor (shl64 k1 31) (N.shiftr k1 (64 - 31)) in
  mul64 k1 C2.

(** murmur3.go:177-182 mixK2 *)
Definition mixK2 (k2 : N) : N :=
  let k2 := mul64 k2 C2 in
  let k2 := N.lor (shl64 k2 33) (N.shiftr k2 (64 - 33)) in
  mul64 k2 C1.

(** murmur3.go:184-192 finalMix64 *)
Definition finalMix64 (h : N) : N :=
  let h := N.lxor h (N.shiftr h 33) in
  let h := mul64 h 0xff51afd7ed558ccd in
  let h := N.lxor h (N.shiftr h 33) in
  let h := mul64 h 0xc4ceb9fe1a85ec53 in
  N.lxor h (N.shiftr h 33).

(** murmur3.go:194-204 blockMix128, on the state (h1, h2) *)
Definition blockMix128 (m : N * N) (k1 k2 : N) : N * N :=
  let (h1, h2) := m in
  let h1 := N.lxor h1 (mixK1 k1) in
  let h1 := N.lor (shl64 h1 27) (N.shiftr h1 (64 - 27)) in
  let h1 := add64 h1 h2 in
  let h1 := add64 (mul64 h1 5) 0x52dce729 in
  let h2 := N.lxor h2 (mixK2 k2) in
  let h2 := N.lor (shl64 h2 31) (N.shiftr h2 (64 - 31)) in
  let h2 := add64 h2 h1 in
  let h2 := add64 (mul64 h2 5) 0x38495ab5 in
  (h1, h2).

(** murmur3.go:206-218 finalMix128 *)
Definition finalMix128 (m : N * N) (k1 k2 inputLengthBytes : N) : N * N :=
  let (h1, h2) := m in
  let h1 := N.lxor h1 (mixK1 k1) in
  let h2 := N.lxor h2 (mixK2 k2) in
  let h1 := N.lxor h1 inputLengthBytes in
  let h2 := N.lxor h2 inputLengthBytes in
  let h1 := add64 h1 h2 in
  let h2 := add64 h2 h1 in
  let h1 := finalMix64 h1 in
  let h2 := finalMix64 h2 in
  let h1 := add64 h1 h2 in
  let h2 := add64 h2 h1 in
  (h1, h2).

(** murmur3.go:160-167 getUint64: [rem] is one more than the loop's index i *)
Fixpoint get_uint64_loop (bArr : list N) (index rem : nat) (out : N) : option N :=
  match rem with
  | O => Some out
  | S i => do b <- nth_error bArr (index + i);
           get_uint64_loop bArr index i (N.lxor out (shl64 (N.land b 255) (N.of_nat (i * 8))))
  end.
Definition get_uint64 (bArr : list N) (index rem : nat) : option N := get_uint64_loop bArr index rem 0%N.

(** uint64(x) of a signed integer, and the read uint64(key[i]) *)
Definition to_u64 (x : Z) : N := Z.to_N (x mod 2 ^ 64).
Definition word_at (key : list Z) (i : nat) : option N := do x <- nth_error key i; Some (to_u64 x).

(** The body loops, murmur3.go:38-42 (chars), 73-77 (int32), 107-111 (int64), 134-138 (bytes): [n] iterations
    are left and the index is [i]; [rd i] reads the two words of block i. *)
Fixpoint body_loop (rd : nat -> option (N * N)) (n i : nat) (m : N * N) : option (N * N) :=
  match n with
  | O => Some m
  | S n' => do (k1, k2) <- rd i; body_loop rd n' (S i) (blockMix128 m k1 k2)
  end.

(** murmur3.go:126-158 HashByteArrMurmur3 *)
Definition hash_byte_arr (key : list N) (offset length : nat) (seed : N) : option (N * N) :=
  let nblocks := length / 16 in
  do m <- body_loop (fun i => do k1 <- get_uint64 key (offset + i * 16) 8;
                              do k2 <- get_uint64 key (offset + i * 16 + 8) 8; Some (k1, k2)) nblocks 0 (seed, seed);
  let tail := nblocks * 16 in
  let rem := length - tail in
  do (k1, k2) <-
    (if 8 <? rem then
       do k1 <- get_uint64 key (offset + tail) 8;
       do k2 <- get_uint64 key (offset + tail + 8) (rem - 8); Some (k1, k2)
     else if negb (rem =? 0) then do k1 <- get_uint64 key (offset + tail) rem; Some (k1, 0%N)
     else Some (0%N, 0%N));
  Some (finalMix128 m k1 k2 (u64 (N.of_nat length))).

(** murmur3.go:30-63 HashCharSliceMurmur3: the "chars" are the bytes of a string *)
Definition hash_char_slice (key : list N) (offset length : nat) (seed : N) : option (N * N) :=
  let nblocks := length / 8 in
  do m <- body_loop (fun i => do k1 <- get_uint64 key (offset + i * 8) 4;
                              do k2 <- get_uint64 key (offset + i * 8 + 4) 4; Some (k1, k2)) nblocks 0 (seed, seed);
  let tail := nblocks * 8 in
  let rem := length - tail in
  do (k1, k2) <-
    (if 4 <? rem then
       do k1 <- get_uint64 key (offset + tail) 4;
       do k2 <- get_uint64 key (offset + tail + 4) (rem - 4); Some (k1, k2)
     else if negb (rem =? 0) then do k1 <- get_uint64 key (offset + tail) rem; Some (k1, 0%N)
     else Some (0%N, 0%N));
  Some (finalMix128 m k1 k2 (shl64 (u64 (N.of_nat length)) 1)).

(** murmur3.go:65-97 HashInt32SliceMurmur3 *)
Definition hash_int32_slice (key : list Z) (offset length : nat) (seed : N) : option (N * N) :=
  let nblocks := length / 4 in
  do m <- body_loop (fun i => do k1 <- word_at key (offset + i * 4);
                              do k2 <- word_at key (offset + i * 4 + 2); Some (k1, k2)) nblocks 0 (seed, seed);
  let tail := nblocks * 4 in
  let rem := length - tail in
  do (k1, k2) <-
    (if 2 <? rem then
       do k1 <- word_at key (offset + tail);
       do k2 <- word_at key (offset + tail + 2); Some (k1, k2)
     else if negb (rem =? 0) then do k1 <- word_at key (offset + tail); Some (k1, 0%N)
     else Some (0%N, 0%N));
  Some (finalMix128 m k1 k2 (shl64 (u64 (N.of_nat length)) 2)).

(** murmur3.go:99-124 HashInt64SliceMurmur3 *)
Definition hash_int64_slice (key : list Z) (offset length : nat) (seed : N) : option (N * N) :=
  let nblocks := length / 2 in
  do m <- body_loop (fun i => do k1 <- word_at key (offset + i * 2);
                              do k2 <- word_at key (offset + i * 2 + 1); Some (k1, k2)) nblocks 0 (seed, seed);
  let tail := nblocks * 2 in
  let rem := length - tail in
  do k1 <- (if negb (rem =? 0) then word_at key (offset + tail) else Some 0%N);
  Some (finalMix128 m k1 0%N (shl64 (u64 (N.of_nat length)) 3)).
