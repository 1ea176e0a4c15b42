(** * Model of count/count_min_sketch.go.

    [hash s item] stands for the first word of internal.HashByteArrMurmur3(item, 0, len(item), uint64(s)) and
    [rng seed i] for the i-th rng.Int() of rand.New(rand.NewSource(seed)); both are arbitrary functions. The int64
    counters and weights wrap; allocation sizes and loop indices (Go ints) do not. [None] is an error or
    a panic. GetRelativeError and GetUpperBound (floating point) are in CountMinErrModel. *)
From Verif Require Import Base Bytes GoInt.
Local Open Scope Z_scope.

(** count_min_sketch.go:33-40. *)
Record cms := mkCms {
  cm_buckets : Z; cm_hashes : Z; cm_slice : list Z; cm_seed : Z; cm_total : Z; cm_seeds : list Z }.

Section CM.
Variable hash : Z -> list N -> Z.
Variable rng : Z -> nat -> Z.

(** count_min_sketch.go:45-70 NewCountMinSketch. A negative slice length panics. *)
Definition cm_new (numHashes numBuckets seed : Z) : option cms :=
  if numBuckets <? 3 then None
  else if 2 ^ 30 <=? wrap32 (numBuckets * numHashes) then None
  else if numHashes <? 0 then None
  else if wrap32 (numBuckets * numHashes) <? 0 then None
  else Some (mkCms numBuckets numHashes (repeat 0 (Z.to_nat (wrap32 (numBuckets * numHashes)))) seed 0
               (map (fun i => wrap64 (rng seed i + seed)) (seq 0 (Z.to_nat numHashes)))).

(** :96-106 getHashes. *)
Fixpoint locations (i : Z) (nb : Z) (seeds : list Z) (item : list N) : list Z :=
  match seeds with
  | [] => []
  | s :: r => i * nb + hash s item mod nb :: locations (i + 1) nb r item
  end.
Definition get_hashes (c : cms) (item : list N) : list Z := locations 0 (cm_buckets c) (cm_seeds c) item.

(** :120-122: the loop adding the weight at each location. *)
Fixpoint add_at (locs : list Z) (w : Z) (a : list Z) : option (list Z) :=
  match locs with
  | [] => Some a
  | h :: r => if h <? 0 then None else
              do v <- nth_error a (Z.to_nat h); add_at r w (upd (Z.to_nat h) (wrap64 (v + w)) a)
  end.

(** :108-124 Update. *)
Definition cm_update (c : cms) (item : list N) (w : Z) : option cms :=
  match item with
  | [] => Some c
  | _ => let t := if w <? 0 then wrap64 (cm_total c + wrap64 (- w)) else wrap64 (cm_total c + w) in
         do a <- add_at (get_hashes c item) w (cm_slice c);
         Some (mkCms (cm_buckets c) (cm_hashes c) a (cm_seed c) t (cm_seeds c))
  end.

(** :126-130 UpdateUint64, :132-138 UpdateString (a string is its bytes). *)
Definition cm_update_u64 (c : cms) (v : N) (w : Z) : option cms := cm_update c (le 8 v) w.
Definition cm_update_string (c : cms) (s : list N) (w : Z) : option cms :=
  match s with [] => Some c | _ => cm_update c s w end.

(** :140-151 GetEstimate. *)
Fixpoint min_at (locs : list Z) (a : list Z) (e : Z) : option Z :=
  match locs with
  | [] => Some e
  | h :: r => if h <? 0 then None else do v <- nth_error a (Z.to_nat h); min_at r a (Z.min e v)
  end.
Definition cm_estimate (c : cms) (item : list N) : option Z :=
  match item with [] => Some 0 | _ => min_at (get_hashes c item) (cm_slice c) (2 ^ 63 - 1) end.

(** :153-157, :159-164 GetEstimateUint64/String, :176-178 GetLowerBound. *)
Definition cm_estimate_u64 (c : cms) (v : N) : option Z := cm_estimate c (le 8 v).
Definition cm_estimate_string (c : cms) (s : list N) : option Z := match s with [] => Some 0 | _ => cm_estimate c s end.
Definition cm_lower_bound (c : cms) (item : list N) : option Z := cm_estimate c item.

(** :186-205 Merge with a distinct sketch (merging a sketch with itself is rejected by pointer comparison).
    The boolean says whether it was accepted. *)
Fixpoint add_slices (a b : list Z) : option (list Z) :=
  match a with
  | [] => Some []
  | x :: a' => match b with
               | [] => None
               | y :: b' => do r <- add_slices a' b'; Some (wrap64 (x + y) :: r)
               end
  end.
Definition cm_merge (c o : cms) : option (cms * bool) :=
  if (cm_hashes c =? cm_hashes o) && (cm_buckets c =? cm_buckets o) && (cm_seed c =? cm_seed o) then
    do a <- add_slices (cm_slice c) (cm_slice o);
    Some (mkCms (cm_buckets c) (cm_hashes c) a (cm_seed c) (wrap64 (cm_total c + cm_total o)) (cm_seeds c), true)
  else Some (c, false).

(** ** Serialization. [seedHash seed] is internal.ComputeSeedHash (None when it returns an error), as an unsigned
    16-bit value. *)
Variable seedHash : Z -> option N.

(** :207-268 Serialize; family.go: CountMinSketch id = 18. *)
Definition cm_serialize (c : cms) : option (list N) :=
  let empty := cm_total c =? 0 in
  do sh <- seedHash (cm_seed c);
  let header := le 1 2 ++ le 1 1 ++ le 1 18 ++ le 1 (if empty then 1 else 0) ++ le 4 0 ++
                le 4 (to_u32 (cm_buckets c)) ++ le 1 (to_u8 (cm_hashes c)) ++ le 2 sh ++ le 1 0 in
  if empty then Some header
  else Some (header ++ le 8 (to_u64 (cm_total c)) ++ concat (map (fun h => le 8 (to_u64 h)) (cm_slice c))).

(** binary.Read of a [k]-byte little-endian integer: error unless [k] bytes are left. *)
Definition rd (k : nat) (r : list N) : option (N * list N) :=
  if (length r <? k)%nat then None else Some (unle (firstn k r), skipn k r).

(** :357-365: the loop reading counters until the buffer is exhausted. [fuel] is the number of bytes left. *)
Fixpoint rd_counters (fuel : nat) (r : list N) (i : nat) (a : list Z) : option (list Z) :=
  match r with
  | [] => Some a
  | _ => match fuel with
         | O => None
         | S fu => do (w, r') <- rd 8 r;
                   if (i <? length a)%nat then rd_counters fu r' (S i) (upd i (wrap64 (Z.of_N w)) a) else None
         end
  end.

(** :270-368 Deserialize. r.Read(unused32) fails only at the end of the buffer; the header check accepts
    everything (utils.go:41-43); the seed hash is read and ignored. *)
Definition cm_deserialize (b : list N) (seed : Z) : option cms :=
  do (_, r) <- rd 1 b; do (_, r) <- rd 1 r; do (_, r) <- rd 1 r; do (flag, r) <- rd 1 r;
  if (length r =? 0)%nat then None else
  let r := skipn 4 r in
  do (nb, r) <- rd 4 r; do (nh, r) <- rd 1 r; do (_, r) <- rd 2 r; do (_, r) <- rd 1 r;
  do c <- cm_new (wrap8 (Z.of_N nh)) (wrap32 (Z.of_N nb)) seed;
  if negb (N.land flag 1 =? 0)%N then Some c
  else
    do (t, r) <- rd 8 r;
    do a <- rd_counters (length r) r 0 (cm_slice c);
    Some (mkCms (cm_buckets c) (cm_hashes c) a (cm_seed c) (wrap64 (Z.of_N t)) (cm_seeds c)).
End CM.
