(** * Model of sampling/reservoir_items_sketch.go and reservoir_items_union.go.

    [T] is the item type. A random draw is an argument: rand.Int63n(b) and rand.Intn(b) are modelled as [d mod b] for an
    arbitrary number [d], which covers all outcomes; the floating point comparisons of the union (they decide which of two
    correct branches is taken, and whether an item is kept) are arbitrary booleans. [growcap] gives the capacity Go's runtime
    chooses when a slice is grown (for given content, old capacity and requested capacity). nil items, which Update ignores,
    are not represented. int (64 bit) sizes are unbounded. [None] is an error or a panic. *)
From Verif Require Import Base Bytes.
Local Open Scope N_scope.

(** reservoir_items_sketch.go:40-42. *)
Definition max_items_seen : N := 281474976710655.

(** sampling/utils.go:31-40 startingSubMultiple. *)
Definition starting_sub_multiple (lgTarget lgRf lgMin : N) : N :=
  if lgTarget <=? lgMin then lgMin else if lgRf =? 0 then lgTarget else (lgTarget - lgMin) mod lgRf + lgMin.
(** sampling/utils.go:45-53 adjustedSamplingAllocationSize. *)
Definition adjusted (maxSize target : N) : N := if maxSize <? 2 * target then maxSize else target.
(** common/utils.go:68-78 CeilingPowerOf2 and internal/utils.go:76-81 ExactLog2 of it. *)
Definition ceiling_lg (k : N) : N := if k <=? 1 then 0 else if 1073741824 <=? k then 30 else N.log2 (2 * (k - 1)).

Section Reservoir.
Context {T : Type}.
Variable growcap : list T -> N -> N -> N.

(** reservoir_items_sketch.go:50-55. [cap]: cap(data). *)
Record res := mkRes { k : N; n : N; rf : N; data : list T; cap : N }.

(** The allocation of NewReservoirItemsSketch and Reset. *)
Definition initial_cap (k0 rf0 : N) : N := adjusted k0 (2 ^ starting_sub_multiple (ceiling_lg k0) rf0 4).

(** reservoir_items_sketch.go:72-96 NewReservoirItemsSketch. *)
Definition res_new (k0 rf0 : N) : option res :=
  if k0 <? 2 then None else Some (mkRes k0 0 rf0 [] (initial_cap k0 rf0)).

(** reservoir_items_sketch.go:103-136 Update and growReservoir. [d]: the random draw. *)
Definition res_update (s : res) (d : N) (x : T) : option res :=
  if n s =? max_items_seen then None
  else if n s <? k s then
    let c := if cap s <=? n s then growcap (data s) (cap s) (N.of_nat (length (data s)) + adjusted (k s) (cap s * 2 ^ rf s)) else cap s in
    if c <=? n s then None
    else
      let c := if N.of_nat (length (data s)) <? c then c else growcap (data s) c (N.of_nat (length (data s)) + 1) in
      Some (mkRes (k s) (n s + 1) (rf s) (data s ++ [x]) c)
  else
    let j := d mod (n s + 1) in
    if j <? k s then
      if j <? N.of_nat (length (data s)) then Some (mkRes (k s) (n s + 1) (rf s) (upd (N.to_nat j) x (data s)) (cap s)) else None
    else Some (mkRes (k s) (n s + 1) (rf s) (data s) (cap s)).

(** Updates with the items of a list, the i-th with draw [dr i]. *)
Fixpoint res_update_all (s : res) (dr : nat -> N) (i : nat) (l : list T) : option res :=
  match l with [] => Some s | x :: t => do s <- res_update s (dr i) x; res_update_all s dr (S i) t end.

(** reservoir_items_sketch.go:150-158 NumSamples, Samples. *)
Definition samples (s : res) : list T := data s.

(** reservoir_items_sketch.go:166-174 Reset. *)
Definition res_reset (s : res) : res := mkRes (k s) 0 (rf s) [] (initial_cap (k s) (rf s)).

(** reservoir_items_sketch.go:300-307 forceIncrementItemsSeen. *)
Definition force_increment (s : res) (delta : N) : option res :=
  if max_items_seen <? n s + delta then None else Some (mkRes (k s) (n s + delta) (rf s) (data s) (cap s)).

(** reservoir_items_sketch.go:251-271 downsampledCopy. *)
Definition downsampled_copy (s : res) (newK : N) (dr : nat -> N) : option res :=
  do r <- res_new newK (rf s);
  do r <- res_update_all r dr 0 (samples s);
  if n r <? n s then force_increment r (n s - n r) else Some r.

(** reservoir_items_sketch.go:492-511 newReservoirItemsSketchFromStates. *)
Definition from_states (items : list T) (n0 rf0 k0 : N) (cap0 : N) : option res :=
  let len := N.of_nat (length items) in
  if k0 <? 2 then None
  else if k0 <? len then None
  else if ((k0 <=? n0) && (len <? k0)) || ((n0 <? k0) && (len <? n0)) then None
  else Some (mkRes k0 n0 rf0 items cap0).

(** ** The union *)
(** reservoir_items_union.go:48-51. *)
Record runion := mkUn { max_k : N; gadget : option res }.

(** reservoir_items_union.go:54-59 NewReservoirItemsUnion: no check of maxK. *)
Definition union_new (maxK : N) : runion := mkUn maxK None.

(** reservoir_items_union.go:66-79 Update. (A nil gadget after a failed construction is dereferenced: a panic.) *)
Definition union_update (u : runion) (d : N) (x : T) : option runion :=
  do g <- (match gadget u with Some g => Some g | None => res_new (max_k u) 3 end);
  do g <- res_update g d x;
  Some (mkUn (max_k u) (Some g)).

(** reservoir_items_union.go:208-220 twoWayMergeInternalStandard. *)
Definition merge_standard (g source : res) (dr : nat -> N) : option res := res_update_all g dr 0 (samples source).

(** reservoir_items_union.go:223-251 twoWayMergeInternalWeighted. [keep i]: rescaledFlip < rescaledProb for item i;
    [slot i]: the draw for its position. insertValueAtPosition's error is ignored by the code. *)
Fixpoint weighted_loop (cnt i : nat) (gk : N) (gd : list T) (src : list T) (keep : nat -> bool) (slot : nat -> N) : option (list T) :=
  match cnt with
  | O => Some gd
  | S c =>
    if keep i then
      do x <- nth_error src i;
      weighted_loop c (S i) gk (let p := slot i mod gk in if p <? N.of_nat (length gd) then upd (N.to_nat p) x gd else gd) src keep slot
    else weighted_loop c (S i) gk gd src keep slot
  end.
Definition merge_weighted (g source : res) (keep : nat -> bool) (slot : nat -> N) : option res :=
  do gd <- weighted_loop (N.to_nat (k source)) 0 (k g) (data g) (data source) keep slot;
  force_increment (mkRes (k g) (n g) (rf g) gd (cap g)) (n source).

(** The random outcomes of one UpdateSketch: draws of downsampling and of the merge, and the floating point decisions. *)
Record chance := mkChance { c_down : nat -> N; c_draw : nat -> N; c_keep : nat -> bool; c_slot : nat -> N; c_light : bool }.

(** reservoir_items_union.go:171-204 twoWayMergeInternal. *)
Definition two_way_merge (g source : res) (c : chance) : option res :=
  if n source <=? k source then merge_standard g source (c_draw c)
  else if n g <? k g then merge_standard source g (c_draw c)
  else if c_light c then merge_weighted g source (c_keep c) (c_slot c)
  else merge_weighted source g (c_keep c) (c_slot c).

(** reservoir_items_union.go:147-167 createNewGadget. *)
Definition create_new_gadget (maxK : N) (source : res) (c : chance) : option res :=
  if (k source <? maxK) && (n source <=? k source) then
    do g <- res_new maxK 3; two_way_merge g source c
  else Some source.

(** reservoir_items_union.go:84-114 UpdateSketch. *)
Definition union_update_sketch (u : runion) (sketch : res) (c : chance) : option runion :=
  do ris <- (if max_k u <? k sketch then downsampled_copy sketch (max_k u) (c_down c) else Some sketch);
  do g <- (match gadget u with None => create_new_gadget (max_k u) ris c | Some g => two_way_merge g ris c end);
  Some (mkUn (max_k u) (Some g)).

(** reservoir_items_union.go:122-142 UpdateFromRaw. *)
Definition union_update_raw (u : runion) (n0 k0 : N) (items : list T) (c : chance) : option runion :=
  do s <- from_states items n0 3 k0 (N.of_nat (length items)); union_update_sketch u s c.

(** reservoir_items_union.go:267-269 Reset: dereferences the gadget. *)
Definition union_reset (u : runion) : option runion :=
  do g <- gadget u; Some (mkUn (max_k u) (Some (res_reset g))).

(** ** Serialization (version 2) *)
Variable ser : list T -> list N.
Variable deser : list N -> nat -> nat -> option (list T).

(** reservoir_items_sketch.go:352-384 ToSlice. [rf] 0..3 occupies the two high bits of byte 0. *)
Definition res_to_slice (s : res) : option (list N) :=
  if 3 <? rf s then None
  else if n s =? 0 then Some ([rf s * 64 + 1; 2; 11; 4] ++ le 4 (k s))
  else Some ([rf s * 64 + 2; 2; 11; 0] ++ le 4 (k s) ++ le 8 (n s) ++ ser (data s)).

(** reservoir_items_sketch.go:415-490 NewReservoirItemsSketchFromSlice, serial version 2 only (version 1 is refused here). [dcap]
    stands for the capacity of the slice DeserializeManyFromSlice returned. *)
Definition res_from_slice (dcap : list T -> N) (b : list N) : option res :=
  if (length b <? 8)%nat then None else
  do b0 <- nth_error b 0;
  let pre := N.land b0 63 in
  let rf0 := N.land (N.shiftr (N.land b0 192) 6) 3 in
  if negb (pre =? 1) && negb (pre =? 2) then None else
  do ver <- nth_error b 1;
  do family <- nth_error b 2;
  if negb (family =? 11) then None else
  do flags <- nth_error b 3;
  let isEmpty := negb (N.land flags 4 =? 0) in
  do n0 <- (if isEmpty then Some 0 else get_le 8 8 b);
  do k0 <- get_le 4 4 b;
  if negb (ver =? 2) then None else
  if isEmpty then res_new k0 rf0
  else
    do items <- deser b 16 (N.to_nat (N.min n0 k0));
    from_states items n0 rf0 k0 (dcap items).
End Reservoir.
