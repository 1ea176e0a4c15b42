(** * Model of the byte images of KLL sketches (kll/items_sketch.go, items_sketch_validate.go, sketch_structure.go,
    preamble_utils.go, utils.go).

    The item serializer is a record of functions: SizeOf, SizeOfMany, SerializeOneToSlice, SerializeManyToSlice and
    DeserializeManyFromSlice of common.ItemSketchSerde (common/types.go).  The offsets of the level array are computed in
    uint8 by the code, and here.  Simplification: the capacity of the given slice is its length (the code tests cap and may
    slice up to it). *)
From Verif Require Import Base Bytes Arr GoInt BitPackModel HllSerdeModel ItemSerdeModel KllModel.
Local Open Scope nat_scope.

(** common/types.go ItemSketchSerde. *)
Record serde (C : Type) := mkSerde {
  size_of : C -> nat;
  size_of_many : list N -> nat -> nat -> res nat;
  ser_one : C -> res (list N);
  ser_many : list C -> res (list N);
  deser : list N -> nat -> nat -> res (list C) }.
Arguments mkSerde {C}. Arguments size_of {C}. Arguments size_of_many {C}. Arguments ser_one {C}. Arguments ser_many {C}. Arguments deser {C}.

(** common/item_sketch_long.go:45-82. *)
Definition long_serde : serde Z :=
  mkSerde long_size_of (fun _ _ num => Ok (long_size_of_many num)) (fun x => of_opt (long_ser_one x)) (fun xs => of_opt (long_ser xs))
    (fun mem off num => of_opt (long_deser mem off num)).
(** common/item_sketch_double.go:46-83 ([w] = 8) and item_sketch_float.go:37-76 ([w] = 4), on bit patterns. *)
Definition float_serde (w : nat) : serde N :=
  mkSerde (float_size_of w) (fun _ _ num => Ok (float_size_of_many w num)) (fun x => of_opt (float_ser_one w x)) (fun xs => of_opt (float_ser w xs))
    (fun mem off num => of_opt (float_deser w mem off num)).
(** common/item_sketch_string.go:45-139. The readers check bounds and return errors. *)
Definition string_serde : serde (list N) :=
  mkSerde string_size_of (fun mem off num => of_err (string_size_of_many mem off num)) (fun x => of_opt (string_ser_one x))
    (fun xs => of_opt (string_ser xs)) (fun mem off num => of_err (string_deser mem off num)).

(** copy(buf[off:], bs): panics when off > len(buf), and copies no more than fits. *)
Definition copy_at (off : nat) (bs buf : list N) : option (list N) :=
  if off <=? length buf then Some (firstn off buf ++ firstn (length buf - off) bs ++ skipn (off + length bs) buf) else None.

(** A value of type uint8. *)
Definition u8 (x : nat) : nat := N.to_nat (N.of_nat x mod 256).

Section Serde.
Context {C : Type}.
Variable zero : C.
Variable sd : serde C.

(** items_sketch.go:668-673 getSingleItem (k >= 8). *)
Definition single_item (s : kll (C := C)) : res C := if negb (n s =? 1)%N then Err else of_opt (nth_error (items s) (N.to_nat (k s) - 1)).

(** items_sketch.go:687-693 getRetainedItemsSizeBytes: for i from levels[0] below levels[numLevels]. *)
Fixpoint sizes_loop (cnt i : nat) (it : list C) (acc : nat) : option nat :=
  match cnt with
  | O => Some acc
  | S c => do x <- nth_error it i; sizes_loop c (i + 1) it (acc + size_of sd x)
  end.
Definition retained_size (s : kll (C := C)) : option nat :=
  do a <- nth_error (levels s) 0;
  do b <- nth_error (levels s) (num_levels s);
  sizes_loop (b - a) a (items s) 0.

(** items_sketch.go:675-680 getRetainedItemsArray: make(numRet), copy(outArr, items[levels[0]:]). *)
Definition retained_array (s : kll (C := C)) : option (list C) :=
  do num <- get_num_retained s;
  do a <- nth_error (levels s) 0;
  if length (items s) <? a then None
  else let src := firstn num (skipn a (items s)) in Some (src ++ repeat zero (num - length src)).

(** items_sketch.go:593-617 currentSerializedSizeBytes, 629-641 getLevelsArrSizeBytes and getMinMaxSizeBytes. *)
Definition serialized_size (s : kll (C := C)) : res nat :=
  if (n s =? 0)%N then Ok 8
  else if (n s =? 1)%N then let* x := single_item s in Ok (8 + size_of sd x)
  else let* rs := of_opt (retained_size s) in
       Ok (20 + (length (levels s) - 1) * 4 + (size_of sd (min_item s) + size_of sd (max_item s)) + rs).

(** items_sketch.go:513-535: the first seven bytes. *)
Definition put_head (pre ser : N) (s : kll (C := C)) (b : list N) : option (list N) :=
  let flags := ((if (n s =? 0)%N then 1 else 0) + (if l0_sorted s then 2 else 0) + (if (n s =? 1)%N then 4 else 0))%N in
  do b <- wr 0 pre b;
  do b <- wr 1 ser b;
  do b <- wr 2 15%N b;
  do b <- wr 3 flags b;
  do b <- put_le 2 4 (k s) b;
  wr 6 (N.of_nat (m s)) b.

(** items_sketch.go:564-566: the loop over the levels; the offset is a uint8. *)
Fixpoint put_levels (cnt i : nat) (lv : list nat) (b : list N) : option (list N) :=
  match cnt with
  | O => Some b
  | S c => do v <- nth_error lv i; do b <- put_le 4 (u8 (20 + i * 4)) (N.of_nat v) b; put_levels c (i + 1) lv b
  end.

(** items_sketch.go:495-570 ToSlice, 643-650 getMinMaxByteArr, 660-666 getSingleItemByteArr. *)
Definition to_slice (s : kll (C := C)) : res (list N) :=
  let* total := serialized_size s in
  let b := repeat 0%N total in
  if (n s =? 0)%N then of_opt (put_head 2 1 s b)
  else if (n s =? 1)%N then
    let* b := of_opt (put_head 2 2 s b) in
    let* x := single_item s in
    let* xb := ser_one sd x in
    of_opt (copy_at 8 xb b)
  else
    let* b := of_opt (put_head 5 1 s b) in
    let* minb := ser_one sd (min_item s) in
    let* maxb := ser_one sd (max_item s) in
    let* ret := of_opt (retained_array s) in
    let* itb := ser_many sd ret in
    let mm := minb ++ maxb in
    of_opt (do b <- put_le 8 8 (n s) b;
            do b <- put_le 2 16 (min_k s) b;
            do b <- wr 18 (N.of_nat (num_levels s)) b;
            do b <- put_levels (num_levels s) 0 (levels s) b;
            do b <- copy_at (u8 (20 + num_levels s * 4)) mm b;
            copy_at (20 + u8 (num_levels s * 4) + length mm) itb b).

(** items_sketch_validate.go:115-117: srcMem[20+i*4 : 20+i*4+4] with both bounds in uint8. *)
Fixpoint get_levels (cnt i : nat) (mem : list N) (lv : list nat) : option (list nat) :=
  match cnt with
  | O => Some lv
  | S c =>
    let lo := u8 (20 + i * 4) in
    if u8 (20 + i * 4 + 4) <? lo then None else
    do v <- get_le 4 lo mem;
    do lv <- wr i (N.to_nat v) lv;
    get_levels c (i + 1) mem lv
  end.

(** items_sketch.go:177-179: items[i + levels[0]] = deseRetItems[i] for i below numRetained. *)
Fixpoint place (cnt i l0 : nat) (src it : list C) : option (list C) :=
  match cnt with
  | O => Some it
  | S c => do x <- nth_error src i; do it <- wr (i + l0) x it; place c (i + 1) l0 src it
  end.

(** items_sketch.go:115-197 NewKllItemsSketchFromSlice, items_sketch_validate.go:59-174 (newItemsSketchMemoryValidate,
    validate, computeSketchBytes), sketch_structure.go:36-51 getSketchStructure, utils.go:46-58 checkK, checkM,
    preamble_utils.go. *)
Definition from_slice (mem : list N) : res (kll (C := C)) :=
  if length mem <? 8 then Err else
  let* pre := of_opt (nth_error mem 0) in
  let* ser := of_opt (nth_error mem 1) in
  let full := (pre =? 5)%N && (ser =? 1)%N in
  let empty := (pre =? 2)%N && (ser =? 1)%N in
  let single := (pre =? 2)%N && (ser =? 2)%N in
  let updatable := (pre =? 5)%N && (ser =? 3)%N in
  if negb (full || empty || single || updatable) then Panic else
  let* fam := of_opt (nth_error mem 2) in
  if negb (fam =? 15)%N then Err else
  let* flags := of_opt (nth_error mem 3) in
  let* k0 := of_opt (get_le 2 4 mem) in
  let* m0 := of_opt (nth_error mem 6) in
  if (m0 <? 2)%N || (8 <? m0)%N || (N.land m0 1 =? 1)%N then Err else
  if (k0 <? m0)%N then Err else
  let emptyFlag := negb (N.land flags 1 =? 0)%N in
  let sorted := negb (N.land flags 2 =? 0)%N in
  let kn := N.to_nat k0 in
  let mn := N.to_nat m0 in
  if full then
    if emptyFlag then Err else
    let* nn := of_opt (get_le 8 8 mem) in
    let* minK := of_opt (get_le 2 16 mem) in
    let* nl := of_opt (nth_error mem 18) in
    let nl := N.to_nat nl in
    let* lv := of_opt (get_levels nl 0 mem (repeat 0 (u8 (nl + 1)))) in
    let* cap := of_opt (compute_total_item_capacity k0 mn nl) in
    let* lv := of_opt (wr nl cap lv) in
    let* l0 := of_opt (nth_error lv 0) in
    let numRet := N.to_nat ((N.of_nat cap + 2 ^ 32 - N.of_nat l0) mod 2 ^ 32) in
    let* _ := size_of_many sd mem (20 + (length lv - 1) * 4) (numRet + 2) in
    let off := u8 (20 + nl * 4) in
    let* mins := deser sd mem off 1 in
    let* mn0 := of_opt (nth_error mins 0) in
    let off := off + size_of sd mn0 in
    let* maxs := deser sd mem off 1 in
    let* mx0 := of_opt (nth_error maxs 0) in
    let off := off + size_of sd mx0 in
    let* ret := deser sd mem off numRet in
    let* it := of_opt (place numRet 0 l0 ret (repeat zero cap)) in
    Ok (mkKll k0 mn minK nl sorted nn lv it mn0 mx0 true)
  else if empty then
    if negb emptyFlag then Err else
    Ok (mkKll k0 mn k0 1 sorted 0 [kn; kn] (repeat zero kn) zero zero false)
  else if single then
    if emptyFlag then Err else
    let* _ := size_of_many sd mem 8 1 in
    let* xs := deser sd mem 8 1 in
    let* x := of_opt (nth_error xs 0) in
    let* it := of_opt (wr (kn - 1) x (repeat zero kn)) in
    Ok (mkKll k0 mn k0 1 sorted 1 [kn - 1; kn] it x x true)
  else Err.

End Serde.
