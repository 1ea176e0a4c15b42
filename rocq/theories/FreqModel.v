(** * Model of frequencies/: reversePurgeLongHashMap, reversePurgeItemHashMap, LongsSketch, ItemsSketch.

    The two maps and the two sketches are the same algorithm, the items version generic in the item type. One model
    covers both; the places where their text differs are Section variables:
    - [K], [keqb]: the item type and Go's ==;
    - [hash k]: hashFn(key) (utils.go:56-64) resp. hasher.Hash(key), as an unsigned 64-bit number - arbitrary;
    - [dlimit]: reversePurgeLongHashMapDriftLimit = 1024. The items map has no limit but stores the drift in an
      int16; for it take [dlimit] = 32768, the drift at which the int16 would wrap: the model turns that
      into an error, so theorems about error-free runs cover the items map while its drifts are below 32768;
    - [del_limited]: whether hashDelete stops at the limit (longs) or not (items);
    - [incl]: whether keepOnlyPositiveCounts' second loop also visits firstProbe (items) or not (longs).

    Simplifications: the three parallel arrays keys/values/states are one array of triples. Array sizes and
    indices are naturals (Go ints that never leave the array range); [& arrayMask] on a power-of-two length
    is [mod]. [None] = the call returns an error, panics or does not terminate. int64 values wrap. *)
From Verif Require Import Base Bytes GoInt QuickSelectModel.
Local Open Scope nat_scope.

Section Freq.
Context {K : Type}.
Variable keqb : K -> K -> bool.
Variable zeroK : K.
Variable hash : K -> N.
Variable dlimit : nat.
Variables del_limited incl : bool.

(** One cell: states[i], keys[i], values[i]. State 0 = empty, otherwise the drift. *)
Record slot := mkSlot { st : nat; ky : K; vl : Z }.

(** reverse_purge_long_hash_map.go:29-36 *)
Record hmap := mkMap { m_lg : nat; m_thr : nat; m_slots : list slot; m_active : nat }.

Definition active (s : slot) : bool := 0 <? st s.
Definition zero_slot : slot := mkSlot 0 zeroK 0.

(** int(float64(size) * 0.75): exact for sizes below 2^51. *)
Definition threshold (size : nat) : nat := 3 * size / 4.

(** reverse_purge_long_hash_map.go:60-76 newReversePurgeLongHashMap(1 << lg). *)
Definition new_map (lg : nat) : hmap := mkMap lg (threshold (2 ^ lg)) (repeat zero_slot (2 ^ lg)) 0.

Definition home (n : nat) (k : K) : nat := N.to_nat (hash k mod N.of_nat n).
Definition next (n p : nat) : nat := (p + 1) mod n.

(** reverse_purge_long_hash_map.go:338-345 hashProbe. *)
Fixpoint hash_probe (fuel : nat) (ss : list slot) (k : K) (p : nat) : option nat :=
  match fuel with
  | 0 => None
  | S fu => do s <- nth_error ss p;
            if active s && negb (keqb (ky s) k) then hash_probe fu ss k (next (length ss) p) else Some p
  end.

(** reverse_purge_long_hash_map.go:78-88 get. *)
Definition get (m : hmap) (k : K) : option Z :=
  let ss := m_slots m in
  do p <- hash_probe (length ss + 1) ss k (home (length ss) k);
  do s <- nth_error ss p;
  if active s then (if keqb (ky s) k then Some (vl s) else None) else Some 0%Z.

(** reverse_purge_long_hash_map.go:101-112: the probing loop of adjustOrPutValue; returns the cell and the drift. *)
Fixpoint adj_probe (fuel : nat) (ss : list slot) (k : K) (p drift : nat) : option (nat * nat) :=
  match fuel with
  | 0 => None
  | S fu => do s <- nth_error ss p;
            if negb (st s =? 0) && negb (keqb (ky s) k) then
              if dlimit <=? drift + 1 then None
              else adj_probe fu ss k (next (length ss) p) (drift + 1)
            else Some (p, drift)
  end.

(** reverse_purge_long_hash_map.go:100-130 adjustOrPutValue. *)
Definition adjust_or_put (m : hmap) (k : K) (amount : Z) : option hmap :=
  let ss := m_slots m in
  do (p, drift) <- adj_probe (dlimit + 1) ss k (home (length ss) k) 1;
  do s <- nth_error ss p;
  if st s =? 0 then
    if m_thr m <? m_active m then None
    else Some (mkMap (m_lg m) (m_thr m) (upd p (mkSlot drift k amount) ss) (m_active m + 1))
  else if negb (keqb (ky s) k) then None
  else Some (mkMap (m_lg m) (m_thr m) (upd p (mkSlot (st s) (ky s) (wrap64 (vl s + amount))) ss) (m_active m)).

(** reverse_purge_long_hash_map.go:132-149 resize, to twice the length (its only use, longs_sketch.go:426). *)
Fixpoint put_all (old : list slot) (m : hmap) : option hmap :=
  match old with
  | [] => Some m
  | s :: r => if active s then do m' <- adjust_or_put m (ky s) (vl s); put_all r m' else put_all r m
  end.
Definition resize (m : hmap) : option hmap := put_all (m_slots m) (new_map (m_lg m + 1)).

(** reverse_purge_long_hash_map.go:216-243 hashDelete; [hole] is the variable deleteProbe. *)
Definition clear_slot (p : nat) (ss : list slot) : list slot :=
  match nth_error ss p with None => ss | Some s => upd p (mkSlot 0 (ky s) (vl s)) ss end.
Fixpoint del_loop (fuel : nat) (ss : list slot) (hole p drift : nat) : option (list slot) :=
  match fuel with
  | 0 => None
  | S fu =>
    do s <- nth_error ss p;
    if st s =? 0 then Some ss
    else
      let '(ss1, hole1, drift1) :=
        if drift <? st s then (clear_slot p (upd hole (mkSlot (st s - drift) (ky s) (vl s)) ss), p, 0)
        else (ss, hole, drift) in
      if del_limited && (dlimit <=? drift1 + 1) then Some ss1        (* the error is ignored by the caller *)
      else del_loop fu ss1 hole1 (next (length ss) p) (drift1 + 1)
  end.
Definition hash_delete (ss : list slot) (p : nat) : option (list slot) :=
  del_loop (length ss + 1) (clear_slot p ss) p (next (length ss) p) 1.

(** reverse_purge_long_hash_map.go:192-195: from the back, the first empty cell. Index -1 panics. *)
Fixpoint first_empty (n : nat) (ss : list slot) : option nat :=
  match n with
  | 0 => None
  | S p => do s <- nth_error ss p; if active s then first_empty p ss else Some p
  end.
(** reverse_purge_long_hash_map.go:197-205 and 207-213: visit the given cells and delete the non-positive entries. *)
Fixpoint sweep (cells : list nat) (ss : list slot) (n : nat) : option (list slot * nat) :=
  match cells with
  | [] => Some (ss, n)
  | p :: r => do s <- nth_error ss p;
              if active s && (vl s <=? 0)%Z then do ss' <- hash_delete ss p; sweep r ss' (n - 1)
              else sweep r ss n
  end.
(** reverse_purge_long_hash_map.go:190-214 keepOnlyPositiveCounts. *)
Definition keep_positive (ss : list slot) (n : nat) : option (list slot * nat) :=
  do f <- first_empty (length ss) ss;
  do (ss1, n1) <- sweep (rev (seq 0 f)) ss n;
  let lo := if incl then f else f + 1 in
  sweep (rev (seq lo (length ss - lo))) ss1 n1.

(** reverse_purge_long_hash_map.go:151-168 purge. The loop collecting samples reads the first [limit] active cells in index order. *)
Definition samples (limit : nat) (ss : list slot) : option (list Z) :=
  let l := map vl (filter active ss) in if length l <? limit then None else Some (firstn limit l).
Definition adjust_all (a : Z) (ss : list slot) : list slot :=
  map (fun s => mkSlot (st s) (ky s) (wrap64 (vl s + a))) ss.
Definition purge (m : hmap) (sampleSize : nat) : option (hmap * Z) :=
  let limit := Nat.min sampleSize (m_active m) in
  do smp <- samples limit (m_slots m);
  do (_, v) <- quick_select Z.ltb smp 0 (limit - 1) (limit / 2);
  do (ss, n) <- keep_positive (adjust_all (wrap64 (- v)) (m_slots m)) (m_active m);
  Some (mkMap (m_lg m) (m_thr m) ss n, v).

(** reverse_purge_long_hash_map.go:360-384: the iterator. [golden n] stands for uint64(float64(n) * InverseGolden). *)
Variable golden : nat -> N.
Definition stride (n : nat) : nat := N.to_nat (N.lor (golden n) 1).
Fixpoint iter (fuel : nat) (ss : list slot) (i remaining : nat) : option (list (K * Z)) :=
  match remaining with
  | 0 => Some []
  | S rem =>
    match fuel with
    | 0 => None
    | S fu => do s <- nth_error ss i;
              let i' := (i + stride (length ss)) mod length ss in
              if active s then do r <- iter fu ss i' rem; Some ((ky s, vl s) :: r)
              else iter fu ss i' remaining
    end
  end.
Definition entries (m : hmap) : option (list (K * Z)) := iter (length (m_slots m)) (m_slots m) 0 (m_active m).

(** ** The sketches: longs_sketch.go / items_sketch.go *)
Record sketch := mkSk { s_lgmax : nat; s_cap : nat; s_off : Z; s_weight : Z; s_sample : nat; s_map : hmap }.

(** longs_sketch.go:61-80 NewLongsSketch, with the sample size as an argument: min(1024, maxMapCap), where the items sketch
    computes maxMapCap from the argument before it is raised to 3 (items_sketch.go:65-86). *)
Definition new_sketch_sample (sample lgMax lgCur : nat) : sketch :=
  let m := new_map (Nat.max lgCur 3) in
  mkSk (Nat.max lgMax 3) (m_thr m) 0 0 sample m.
Definition new_longs (lgMax lgCur : nat) : sketch :=
  new_sketch_sample (Nat.min 1024 (threshold (2 ^ Nat.max lgMax 3))) lgMax lgCur.
Definition new_items (lgMax lgCur : nat) : sketch :=
  new_sketch_sample (Nat.min 1024 (threshold (2 ^ lgMax))) lgMax lgCur.

(** longs_sketch.go:412-444 UpdateMany. *)
Definition update_many (s : sketch) (k : K) (c : Z) : option sketch :=
  if (c =? 0)%Z then Some s
  else if (c <? 0)%Z then None
  else
    let w := wrap64 (s_weight s + c) in
    do m <- adjust_or_put (s_map s) k c;
    if s_cap s <? m_active m then
      if m_lg m <? s_lgmax s then
        do m' <- resize m;
        Some (mkSk (s_lgmax s) (m_thr m') (s_off s) w (s_sample s) m')
      else
        do (m', v) <- purge m (s_sample s);
        if threshold (2 ^ s_lgmax s) <? m_active m' then None
        else Some (mkSk (s_lgmax s) (s_cap s) (wrap64 (s_off s + v)) w (s_sample s) m')
    else Some (mkSk (s_lgmax s) (s_cap s) (s_off s) w (s_sample s) m).

Definition is_empty (s : sketch) : bool := m_active (s_map s) =? 0.

(** longs_sketch.go:451-467 Merge with another sketch. *)
Fixpoint update_all (s : sketch) (l : list (K * Z)) : option sketch :=
  match l with [] => Some s | (k, c) :: r => do s' <- update_many s k c; update_all s' r end.
Definition merge (s o : sketch) : option sketch :=
  if is_empty o then Some s
  else
    do es <- entries (s_map o);
    do s' <- update_all s es;
    Some (mkSk (s_lgmax s') (s_cap s') (wrap64 (s_off s' + s_off o)) (wrap64 (s_weight s + s_weight o)) (s_sample s') (s_map s')).

(** longs_sketch.go:538-544 Reset. *)
Definition reset (s : sketch) : sketch :=
  let m := new_map 3 in mkSk (s_lgmax s) (m_thr m) 0 0 (s_sample s) m.

(** longs_sketch.go:293-325 GetEstimate, GetLowerBound, GetUpperBound; items_sketch.go GetEstimate is 0 for an
    untracked item. *)
Definition lower_bound (s : sketch) (k : K) : option Z := get (s_map s) k.
Definition upper_bound (s : sketch) (k : K) : option Z := do v <- get (s_map s) k; Some (wrap64 (v + s_off s)).
Definition estimate_longs (s : sketch) (k : K) : option Z := upper_bound s k.
Definition estimate_items (s : sketch) (k : K) : option Z :=
  do v <- get (s_map s) k; Some (if (0 <? v)%Z then wrap64 (v + s_off s) else 0%Z).
Definition maximum_error (s : sketch) : Z := s_off s.

(** longs_sketch.go:345-352 GetFrequentItemsWithThreshold, :558-597 sortItems. A row is (item, estimate, upper, lower).
    slices.SortFunc by descending estimate is modelled by an insertion sort (ties may come out in another order). *)
Record row := mkRow { r_item : K; r_est : Z; r_ub : Z; r_lb : Z }.
Fixpoint rows (s : sketch) (noFalseNeg : bool) (thr : Z) (es : list (K * Z)) : option (list row) :=
  match es with
  | [] => Some []
  | (k, _) :: r =>
    do v <- get (s_map s) k;
    let ub := wrap64 (v + s_off s) in
    do rest <- rows s noFalseNeg thr r;
    if (if noFalseNeg then (thr <=? ub)%Z else (thr <=? v)%Z) then Some (mkRow k ub ub v :: rest) else Some rest
  end.
Fixpoint insert_row (x : row) (l : list row) : list row :=
  match l with [] => [x] | y :: r => if (r_est y <? r_est x)%Z then x :: l else y :: insert_row x r end.
Definition sort_rows (l : list row) : list row := fold_right insert_row [] l.
Definition frequent_items_thr (s : sketch) (noFalseNeg : bool) (thr : Z) : option (list row) :=
  do es <- entries (s_map s);
  do l <- rows s noFalseNeg (Z.max (maximum_error s) thr) es;
  Some (sort_rows l).

(** Serialization at the level of the fields written (longs_sketch.go:488-535 ToSlice): lgMax, lgCur, weight, offset and
    the active (value, key) pairs in array order; an empty sketch writes only the preamble. *)
Inductive image := EmptyImage (lgMax : nat) | FullImage (lgMax lgCur : nat) (weight off : Z) (vals : list Z) (keys : list K).
Definition to_image (s : sketch) : image :=
  if is_empty s then EmptyImage (s_lgmax s)
  else let a := filter active (m_slots (s_map s)) in
       FullImage (s_lgmax s) (m_lg (s_map s)) (s_weight s) (s_off s) (map vl a) (map ky a).
(** longs_sketch.go:101-173 NewLongsSketchFromSlice. *)
Definition of_image_longs (i : image) : option sketch :=
  match i with
  | EmptyImage lgMax => Some (new_longs lgMax 3)
  | FullImage lgMax lgCur w off vals keys =>
    let s0 := new_longs lgMax lgCur in
    do s <- update_all (mkSk (s_lgmax s0) (s_cap s0) off (s_weight s0) (s_sample s0) (s_map s0)) (combine keys vals);
    Some (mkSk (s_lgmax s) (s_cap s) (s_off s) w (s_sample s) (s_map s))
  end.
(** items_sketch.go:112-186 NewFrequencyItemsSketchFromSlice: an empty image gives the smallest sketch whatever lgMax was. *)
Definition of_image_items (i : image) : option sketch :=
  match i with
  | EmptyImage _ => Some (new_items 3 3)
  | FullImage lgMax lgCur w off vals keys =>
    let s0 := new_items lgMax lgCur in
    do s <- update_all (mkSk (s_lgmax s0) (s_cap s0) off (s_weight s0) (s_sample s0) (s_map s0)) (combine keys vals);
    Some (mkSk (s_lgmax s) (s_cap s) (s_off s) w (s_sample s) (s_map s))
  end.
End Freq.
