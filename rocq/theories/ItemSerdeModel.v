(** * Model of the item serializers in common/item_sketch_{long,double,float,string}.go.
    A float is its bit pattern (math.Float64bits and Float32bits are bijections); a string is its bytes.
    [None] is an error or an index panic. *)
From Verif Require Import Base Bytes GoInt.
Local Open Scope nat_scope.

(** The loop of SerializeManyToSlice (item_sketch_long.go:59-70, item_sketch_double.go:60-71, item_sketch_float.go:51-63):
    PutUint at [off], then off += w. *)
Fixpoint fixed_ser_loop (w off : nat) (vals : list N) (buf : list N) : option (list N) :=
  match vals with [] => Some buf | v :: t => do buf <- put_le w off v buf; fixed_ser_loop w (off + w) t buf end.
Definition fixed_ser (w : nat) (vals : list N) : option (list N) :=
  if length vals =? 0 then Some [] else fixed_ser_loop w 0 vals (repeat 0%N (w * length vals)).
(** DeserializeManyFromSlice (item_sketch_long.go:72-82, item_sketch_double.go:73-83, item_sketch_float.go:65-76). *)
Fixpoint fixed_deser (w : nat) (mem : list N) (off num : nat) : option (list N) :=
  match num with O => Some [] | S c => do v <- get_le w off mem; do r <- fixed_deser w mem (off + w) c; Some (v :: r) end.

(** item_sketch_long.go:45-82. int64 <-> uint64 conversions. *)
Definition long_size_of (_ : Z) : nat := 8.
Definition long_size_of_many (num : nat) : nat := num * 8.
Definition long_ser_one (x : Z) : option (list N) := put_le 8 0 (to_u64 x) (repeat 0%N 8).
Definition long_ser (xs : list Z) : option (list N) := fixed_ser 8 (map to_u64 xs).
Definition long_deser (mem : list N) (off num : nat) : option (list Z) :=
  do vs <- fixed_deser 8 mem off num; Some (map (fun v => wrap64 (Z.of_N v)) vs).

(** item_sketch_double.go:46-83 and item_sketch_float.go:37-76 on bit patterns; [w] = 8 or 4. *)
Definition float_size_of (w : nat) (_ : N) : nat := w.
Definition float_size_of_many (w num : nat) : nat := num * w.
Definition float_ser_one (w : nat) (x : N) : option (list N) := put_le w 0 x (repeat 0%N w).
Definition float_ser (w : nat) (xs : list N) : option (list N) := fixed_ser w xs.
Definition float_deser (w : nat) (mem : list N) (off num : nat) : option (list N) := fixed_deser w mem off num.

(** common/utils.go:30-32 checkBounds: no sign bit in offset, reqLen, their sum and memCap minus the sum. *)
Definition check_bounds (off req cap : nat) : bool := off + req <=? cap.

(** item_sketch_string.go:45-47 SizeOf. *)
Definition string_size_of (s : list N) : nat := length s + 4.
(** item_sketch_string.go:49-68 SizeOfMany. *)
Fixpoint string_size_loop (mem : list N) (off num : nat) : option nat :=
  match num with
  | O => Some off
  | S c => if negb (check_bounds off 4 (length mem)) then None else
           do len <- get_le 4 off mem;
           if length mem <? off + 4 + N.to_nat len then None else string_size_loop mem (off + 4 + N.to_nat len) c
  end.
Definition string_size_of_many (mem : list N) (off num : nat) : option nat :=
  if num =? 0 then Some 0 else do o <- string_size_loop mem off num; Some (o - off).
(** item_sketch_string.go:75-84 SerializeOneToSlice: nothing for the empty string. *)
Definition string_ser_one (s : list N) : option (list N) :=
  if length s =? 0 then Some []
  else do b <- put_le 4 0 (N.of_nat (length s) mod 2 ^ 32)%N (repeat 0%N (length s + 4)); put 4 s b.
(** item_sketch_string.go:91-109 SerializeManyToSlice. *)
Fixpoint string_ser_loop (off : nat) (items : list (list N)) (buf : list N) : option (list N) :=
  match items with
  | [] => Some buf
  | s :: t => do buf <- put_le 4 off (N.of_nat (length s) mod 2 ^ 32)%N buf; do buf <- put (off + 4) s buf;
              string_ser_loop (off + 4 + length s) t buf
  end.
Definition string_ser (items : list (list N)) : option (list N) :=
  if length items =? 0 then Some []
  else string_ser_loop 0 items (repeat 0%N (list_sum (map (fun s => length s + 4) items))).
(** item_sketch_string.go:116-139 DeserializeManyFromSlice. *)
Fixpoint string_deser (mem : list N) (off num : nat) : option (list (list N)) :=
  match num with
  | O => Some []
  | S c => if negb (check_bounds off 4 (length mem)) then None else
           do len <- get_le 4 off mem;
           if negb (check_bounds (off + 4) (N.to_nat len) (length mem)) then None else
           do s <- slice (off + 4) (N.to_nat len) mem;
           do r <- string_deser mem (off + 4 + N.to_nat len) c; Some (s :: r)
  end.
