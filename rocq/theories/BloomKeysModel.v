(** * From the typed methods of the Bloom filter to its pair of hashes (filters/bloom_filter.go).

    This is the function [hashes] that BloomModel.v takes as a parameter.  A float64 is its IEEE bit pattern.
    github.com/cespare/xxhash/v2, which is not in the repository, is taken to be the published XXH64
    ([xxh64], from the published description of the algorithm). *)
From Verif Require Import Base Bytes GoInt BloomModel Murmur3Model Murmur3Props KeysModel.
Local Open Scope nat_scope.

(** ** The published XXH64 *)

Definition P1 : N := 0x9E3779B185EBCA87.
Definition P2 : N := 0xC2B2AE3D27D4EB4F.
Definition P3 : N := 0x165667B19E3779F9.
Definition P4 : N := 0x85EBCA77C2B2AE63.
Definition P5 : N := 0x27D4EB2F165667C5.
Definition xx_rotl (r x : N) : N := ((x * 2 ^ r) mod 2 ^ 64 + x / 2 ^ (64 - r))%N.
Definition xx_round (acc lane : N) : N := ((xx_rotl 31 ((acc + lane * P2) mod 2 ^ 64) * P1) mod 2 ^ 64)%N.
Definition xx_merge (acc v : N) : N := ((N.lxor acc (xx_round 0 v) * P1 + P4) mod 2 ^ 64)%N.
Definition xx_avalanche (h : N) : N :=
  let h := N.lxor h (h / 2 ^ 33) in
  let h := ((h * P2) mod 2 ^ 64)%N in
  let h := N.lxor h (h / 2 ^ 29) in
  let h := ((h * P3) mod 2 ^ 64)%N in
  N.lxor h (h / 2 ^ 32).
(** Stripes of 32 bytes into four accumulators; returns the accumulators and the rest. *)
Fixpoint xx_stripes (n : nat) (b : list N) (a : N * N * N * N) : (N * N * N * N) * list N :=
  match n with
  | 0 => (a, b)
  | S n' => let '(a1, a2, a3, a4) := a in
      xx_stripes n' (skipn 32 b)
        (xx_round a1 (unle (firstn 8 b)), xx_round a2 (unle (firstn 8 (skipn 8 b))),
         xx_round a3 (unle (firstn 8 (skipn 16 b))), xx_round a4 (unle (firstn 8 (skipn 24 b))))
  end.
Fixpoint xx_words (n : nat) (b : list N) (acc : N) : N * list N :=
  match n with
  | 0 => (acc, b)
  | S n' => xx_words n' (skipn 8 b) ((xx_rotl 27 (N.lxor acc (xx_round 0 (unle (firstn 8 b)))) * P1 + P4) mod 2 ^ 64)%N
  end.
Definition xx_half (b : list N) (acc : N) : N * list N :=
  if 4 <=? length b
  then (((xx_rotl 23 (N.lxor acc ((unle (firstn 4 b) * P1) mod 2 ^ 64)) * P2 + P3) mod 2 ^ 64)%N, skipn 4 b)
  else (acc, b).
Fixpoint xx_bytes (b : list N) (acc : N) : N :=
  match b with
  | [] => acc
  | x :: r => xx_bytes r ((xx_rotl 11 (N.lxor acc ((x * P5) mod 2 ^ 64)) * P1) mod 2 ^ 64)%N
  end.
Definition xxh64 (b : list N) (seed : N) : N :=
  let len := (N.of_nat (length b) mod 2 ^ 64)%N in
  let (acc, rest) :=
    if 32 <=? length b then
      let '((a1, a2, a3, a4), rest) := xx_stripes (length b / 32) b
        (((seed + P1 + P2) mod 2 ^ 64)%N, ((seed + P2) mod 2 ^ 64)%N, seed, ((seed + (2 ^ 64 - P1)) mod 2 ^ 64)%N) in
      (xx_merge (xx_merge (xx_merge (xx_merge
         ((xx_rotl 1 a1 + xx_rotl 7 a2 + xx_rotl 12 a3 + xx_rotl 18 a4) mod 2 ^ 64)%N a1) a2) a3) a4, rest)
    else (((seed + P5) mod 2 ^ 64)%N, b) in
  let acc := ((acc + len) mod 2 ^ 64)%N in
  let (acc, rest) := xx_words (length rest / 8) rest acc in
  let (acc, rest) := xx_half rest acc in
  xx_avalanche (xx_bytes rest acc).

(** ** The filter's methods *)

(** bits.RotateLeft64 *)
Definition rotate_left64 (x : N) (k : N) : N := N.lor (shl64 x k) (N.shiftr x (64 - k)).

(** bloom_filter.go:160-187 hashLongOptimized *)
Definition hash_long_optimized (value seed : N) : N :=
  let hash := add64 seed P5 in
  let hash := add64 hash 8 in
  let k1 := value in
  let k1 := mul64 k1 P2 in
  let k1 := rotate_left64 k1 31 in
  let k1 := mul64 k1 P1 in
  let hash := N.lxor hash k1 in
  let hash := add64 (mul64 (rotate_left64 hash 27) P1) P4 in
  let hash := N.lxor hash (N.shiftr hash 33) in
  let hash := mul64 hash P2 in
  let hash := N.lxor hash (N.shiftr hash 29) in
  let hash := mul64 hash P3 in
  N.lxor hash (N.shiftr hash 32).

(** bloom_filter.go:144-156 computeHashes *)
Definition compute_hashes (seed : N) (data : list N) : N * N :=
  let h0 := xxh64 data seed in
  let h1 := xxh64 data h0 in
  (h0, h1).

(** bloom_filter.go:191-195 computeHashesForLong *)
Definition compute_hashes_for_long (seed value : N) : N * N :=
  let h0 := hash_long_optimized value seed in
  let h1 := hash_long_optimized value h0 in
  (h0, h1).

(** bloom_filter.go:280-296, 334-350, 388-404: the bits hashed for a float64.  math.IsInf on the bits. *)
Definition bloom_float_bits (bits : N) : N :=
  if f64_is_zero bits then 0%N
  else if f64_is_nan bits then 0x7ff8000000000000%N
  else if (bits =? 0x7ff0000000000000)%N then 0x7ff0000000000000%N
  else if (bits =? 0xfff0000000000000)%N then 0xfff0000000000000%N
  else bits.

(** bloom_filter.go:421-424, 458-461, 493-496: the little-endian bytes of an array of 64-bit words, written into a
    fresh slice of eight bytes per element *)
Definition array_bytes (words : list N) : list N := flat_map (le 8) words.

Inductive bloom_input :=
| BUint64 (v : N) | BInt64 (v : Z) | BString (s : list N) | BSlice (b : list N) | BFloat64 (bits : N)
| BInt64Array (l : list Z) | BFloat64Array (l : list N).

(** The hashes the Update, Query and QueryAndUpdate methods compute for a value: bloom_filter.go:248-521.
    None: the method returns without touching the filter. *)
Definition bloom_hashes (seed : N) (x : bloom_input) : option (N * N) :=
  match x with
  | BUint64 v => Some (compute_hashes_for_long seed v)
  | BInt64 v => Some (compute_hashes_for_long seed (Murmur3Model.to_u64 v))
  | BString s => match s with [] => None | _ => Some (compute_hashes seed s) end
  | BSlice b => Some (compute_hashes seed b)
  | BFloat64 bits => Some (compute_hashes seed (le 8 (bloom_float_bits bits)))
  | BInt64Array l => match l with [] => None | _ => Some (compute_hashes seed (array_bytes (map Murmur3Model.to_u64 l))) end
  | BFloat64Array l => match l with [] => None | _ => Some (compute_hashes seed (array_bytes l)) end
  end.
