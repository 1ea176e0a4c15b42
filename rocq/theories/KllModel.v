(** * Model of kll/: the KLL items sketch.

    [C] is the item type, [less] the user's CompareFn, [ceq] Go's ==, [zero] the zero value that make() stores.
    [sort] stands for slices.SortFunc / sort.Slice applied to a sub-slice. The random bits are an arbitrary infinite
    sequence [coin], so a theorem for every [coin] covers every outcome of rand.Intn(2). The code draws one bit per
    compaction; the log [r] threaded through the functions lists the levels compacted so far, most recent first, and the next
    bit drawn is [coin (length r)]. (The code keeps no such log: it is there for the bits and for the error bound.)

    Simplifications: uint32 indices and counts, uint8 level numbers are unbounded naturals (KllProps proves bounds that rule
    out the wraparounds; where Go subtracts below zero and then indexes, the model returns [None]); only k << 1, which does
    wrap in uint16, is modelled with its width. n is unbounded. nil items (ignored by updateItem) are not represented. The
    cached sortedView pointer is not represented: a view is a function of the sketch. *)
From Verif Require Import Base Bytes Arr SearchModel.
Local Open Scope nat_scope.

Section Kll.
Context {C : Type}.
Variables less ceq : C -> C -> bool.
Variable zero : C.
Variable sort : list C -> list C.
Variable coin : nat -> bool.

(** items_sketch.go:36-60 ItemsSketch (serde, deterministicOffsetForTest and sortedView omitted). *)
Record kll := mkKll {
  k : N; m : nat; min_k : N; num_levels : nat; l0_sorted : bool; n : N;
  levels : list nat; items : list C; min_item : C; max_item : C; has_min_max : bool }.

Definition set_levels_items (s : kll) (nl : nat) (lv : list nat) (it : list C) : kll :=
  mkKll (k s) (m s) (min_k s) nl (l0_sorted s) (n s) lv it (min_item s) (max_item s) (has_min_max s).

(** items_sketch.go:83-104 NewKllItemsSketch. *)
Definition kll_new (k0 : N) (m0 : nat) : option kll :=
  if (k0 <? 8)%N || (65535 <? k0)%N then None
  else Some (mkKll k0 m0 k0 1 false 0 [N.to_nat k0; N.to_nat k0] (repeat zero (N.to_nat k0)) zero zero false).

(** items_sketch.go:477-488 Reset. *)
Definition kll_reset (s : kll) : kll :=
  mkKll (k s) (m s) (min_k s) 1 false 0 [N.to_nat (k s); N.to_nat (k s)] (repeat zero (N.to_nat (k s))) zero zero false.

(** items_sketch.go:1023-1031 intCapAuxAux: k << 1 is computed in uint16; powersOfThree has 31 entries. *)
Definition int_cap_aux_aux (k0 : N) (depth : nat) : option N :=
  if 30 <? depth then None
  else
    let twok := ((2 * k0) mod 65536)%N in
    let tmp := (twok * 2 ^ N.of_nat depth / 3 ^ N.of_nat depth)%N in
    let result := ((tmp + 1) / 2)%N in
    Some (if (result <=? k0)%N then result else k0).

(** items_sketch.go:1013-1021 intCapAux. *)
Definition int_cap_aux (k0 : N) (depth : nat) : option N :=
  if depth <=? 30 then int_cap_aux_aux k0 depth
  else
    let half := depth / 2 in
    let rest := depth - half in
    do tmp <- int_cap_aux_aux k0 half;
    int_cap_aux_aux (tmp mod 65536)%N rest.

(** items_sketch.go:1008-1011 levelCapacity. *)
Definition level_capacity (k0 : N) (numLevels level m0 : nat) : option nat :=
  do depth <- sub (numLevels - level) 1;
  do c <- int_cap_aux k0 depth;
  Some (Nat.max m0 (N.to_nat c)).

(** items_sketch.go:1000-1006 computeTotalItemCapacity. *)
Fixpoint total_cap_loop (k0 : N) (m0 numLevels level cnt total : nat) : option nat :=
  match cnt with
  | O => Some total
  | S c => do x <- level_capacity k0 numLevels level m0; total_cap_loop k0 m0 numLevels (S level) c (total + x)
  end.
Definition compute_total_item_capacity (k0 : N) (m0 numLevels : nat) : option nat := total_cap_loop k0 m0 numLevels 0 numLevels 0.

(** items_sketch.go:988-998 findLevelToCompact. *)
Fixpoint find_level_loop (fuel : nat) (k0 : N) (m0 numLevels : nat) (lv : list nat) (level : nat) : option nat :=
  match fuel with
  | O => None
  | S f =>
    do b <- nth_error lv (level + 1);
    do a <- nth_error lv level;
    do c <- level_capacity k0 numLevels level m0;
    if c <=? b - a then Some level else find_level_loop f k0 m0 numLevels lv (level + 1)
  end.
Definition find_level_to_compact (k0 : N) (m0 numLevels : nat) (lv : list nat) : option nat :=
  find_level_loop (length lv) k0 m0 numLevels lv 0.

(** items_sketch.go:1033-1044 randomlyHalveUpItems. The last step of j may pass below 0; it is not used then, so j is a [Z]. *)
Fixpoint halve_up_loop (cnt : nat) (buf : list C) (i : nat) (j : Z) : option (list C) :=
  match cnt with
  | O => Some buf
  | S c =>
    do x <- at_ buf j;
    do buf <- wr i x buf;
    halve_up_loop c buf (i - 1) (j - 2)%Z
  end.
Definition randomly_halve_up (buf : list C) (start len : nat) (r : nat) : option (list C * nat) :=
  let half := len / 2 in
  let offset := (if coin r then 1 else 0)%Z in
  do _ <- sub (start + half) 1; (* otherwise i, unsigned, never drops below the limit *)
  do buf <- halve_up_loop (len - half) buf (start + len - 1) (Z.of_nat (start + len) - 1 - offset)%Z;
  Some (buf, S r).

(** items_sketch.go:1046-1057 randomlyHalveDownItems. *)
Fixpoint halve_down_loop (cnt : nat) (buf : list C) (i j : nat) : option (list C) :=
  match cnt with
  | O => Some buf
  | S c =>
    do x <- nth_error buf j;
    do buf <- wr i x buf;
    halve_down_loop c buf (i + 1) (j + 2)
  end.
Definition randomly_halve_down (buf : list C) (start len : nat) (r : nat) : option (list C * nat) :=
  let offset := if coin r then 1 else 0 in
  do buf <- halve_down_loop (len / 2) buf start (start + offset);
  Some (buf, S r).

(** items_sketch.go:1059-1086 mergeSortedItemsArrays. [geta], [getb] read bufA and bufB given the present content of bufC:
    the code calls this function both with three distinct buffers and with the same buffer three times. *)
Fixpoint merge_loop (geta getb : list C -> nat -> option C) (cnt : nat) (bufC : list C) (a limA b limB c : nat) : option (list C) :=
  match cnt with
  | O => Some bufC
  | S cnt' =>
    if a =? limA then
      do y <- getb bufC b;
      do bufC <- wr c y bufC;
      merge_loop geta getb cnt' bufC a limA (b + 1) limB (c + 1)
    else if b =? limB then
      do x <- geta bufC a;
      do bufC <- wr c x bufC;
      merge_loop geta getb cnt' bufC (a + 1) limA b limB (c + 1)
    else
      do x <- geta bufC a;
      do y <- getb bufC b;
      if less x y then
        do bufC <- wr c x bufC;
        merge_loop geta getb cnt' bufC (a + 1) limA b limB (c + 1)
      else
        do bufC <- wr c y bufC;
        merge_loop geta getb cnt' bufC a limA (b + 1) limB (c + 1)
  end.
Definition merge_sorted_in_place (buf : list C) (startA lenA startB lenB startC : nat) : option (list C) :=
  merge_loop (@nth_error C) (@nth_error C) (lenA + lenB) buf startA (startA + lenA) startB (startB + lenB) startC.
Definition merge_sorted (bufA : list C) (startA lenA : nat) (bufB : list C) (startB lenB : nat) (bufC : list C) (startC : nat) : option (list C) :=
  merge_loop (fun _ => nth_error bufA) (fun _ => nth_error bufB) (lenA + lenB) bufC startA (startA + lenA) startB (startB + lenB) startC.

(** slices.SortFunc on buf[beg : beg+len]. *)
Definition sort_slice (buf : list C) (beg len : nat) : option (list C) :=
  do sl <- sl_get beg len buf;
  sl_put beg (sort sl) buf.

(** items_sketch.go:937-986 addEmptyTopLevelToCompletelyFullSketch. *)
Definition add_delta (delta : nat) : nat -> list nat -> list nat :=
  fix go cnt l := match cnt, l with S c, x :: t => (x + delta) :: go c t | _, _ => l end.
Definition add_empty_top_level (s : kll) : option kll :=
  do cur_cap <- nth_error (levels s) (num_levels s);
  do delta <- level_capacity (k s) (num_levels s + 1) 0 (m s);
  let new_cap := cur_cap + delta in
  let grow := length (levels s) <? num_levels s + 2 in
  let '(lv, nl) := if grow then (firstn (num_levels s + 2) (levels s ++ repeat 0 (num_levels s + 2 - length (levels s))), num_levels s + 1)
                   else (levels s, num_levels s) in
  if length lv <? nl then None else
  let lv := add_delta delta nl lv in
  do lv <- wr nl new_cap lv;
  do old <- sl_get 0 cur_cap (items s);
  Some (set_levels_items s nl lv (repeat zero delta ++ old)).

(** The loop of items_sketch.go:919-929: shifts items[beg, beg+cnt) right by [half], from the end. *)
Fixpoint shift_right_loop (cnt : nat) (buf : list C) (beg half : nat) : option (list C) :=
  match cnt with
  | O => Some buf
  | S c =>
    do x <- nth_error buf (beg + cnt - 1);
    do buf <- wr (beg + half + cnt - 1) x buf;
    shift_right_loop c buf beg half
  end.

(** items_sketch.go:896-912 and 1183-1202: the same text in compressWhileUpdatingSketch and generalItemsCompress. Optional sort of
    the level, then halving, then (if the level above is not empty) merging into it. *)
Definition halve_and_merge (dosort : bool) (buf : list C) (adjBeg adjPop half rawEnd popAbove r : nat) : option (list C * nat) :=
  do buf <- (if dosort then sort_slice buf adjBeg adjPop else Some buf);
  if popAbove =? 0 then randomly_halve_up buf adjBeg adjPop r
  else
    do (buf, r) <- randomly_halve_down buf adjBeg adjPop r;
    do buf <- merge_sorted_in_place buf adjBeg half rawEnd popAbove (adjBeg + half);
    Some (buf, r).

(** items_sketch.go:873-934: compressWhileUpdatingSketch after the level has been chosen and the top level, if needed, added. *)
Definition compact_level (s : kll) (level : nat) (r : list nat) : option (kll * list nat) :=
  let lv := levels s in
  do rawBeg <- nth_error lv level;
  do rawEnd <- nth_error lv (level + 1);
  do top <- nth_error lv (level + 2);
  do popAbove <- sub top rawEnd;
  do rawPop <- sub rawEnd rawBeg;
  let oddPop := rawPop mod 2 =? 1 in
  let adjBeg := if oddPop then rawBeg + 1 else rawBeg in
  let adjPop := if oddPop then rawPop - 1 else rawPop in
  let half := adjPop / 2 in
  do (buf, _) <- halve_and_merge (level =? 0) (items s) adjBeg adjPop half rawEnd popAbove (length r);
  do newIndex <- sub rawEnd half;
  do lv <- wr (level + 1) newIndex lv;
  do (lv, buf) <- (if oddPop then
                     do b <- sub newIndex 1;
                     do lv <- wr level b lv;
                     do x <- nth_error buf rawBeg;
                     do buf <- wr b x buf;
                     Some (lv, buf)
                   else
                     do lv <- wr level newIndex lv; Some (lv, buf));
  do buf <- (if 0 <? level then
               do l0 <- nth_error lv 0;
               do amount <- sub rawBeg l0;
               shift_right_loop amount buf l0 half
             else Some buf);
  let lv := add_delta half level lv in
  Some (set_levels_items s (num_levels s) lv buf, level :: r).

(** items_sketch.go:864-935 compressWhileUpdatingSketch. *)
Definition compress_while_updating (s : kll) (r : list nat) : option (kll * list nat) :=
  do level <- find_level_to_compact (k s) (m s) (num_levels s) (levels s);
  do s <- (if level =? num_levels s - 1 then add_empty_top_level s else Some s);
  compact_level s level r.

(** items_sketch.go:706-732 updateItem (and 458-461 Update). *)
Definition kll_update (s : kll) (r : list nat) (x : C) : option (kll * list nat) :=
  let mn := if negb (has_min_max s) then x else if less x (min_item s) then x else min_item s in
  let mx := if negb (has_min_max s) then x else if less (max_item s) x then x else max_item s in
  let s := mkKll (k s) (m s) (min_k s) (num_levels s) (l0_sorted s) (n s) (levels s) (items s) mn mx true in
  do l0 <- nth_error (levels s) 0;
  do (s, r) <- (if l0 =? 0 then compress_while_updating s r else Some (s, r));
  do l0 <- nth_error (levels s) 0;
  do pos <- sub l0 1;
  do lv <- wr 0 pos (levels s);
  do it <- wr pos x (items s);
  Some (mkKll (k s) (m s) (min_k s) (num_levels s) false (n s + 1) lv it (min_item s) (max_item s) (has_min_max s), r).

(** utils.go:102-105 ubOnNumLevels, for n > 0. *)
Definition ub_on_num_levels (n0 : N) : nat := 1 + N.to_nat (N.log2 n0).

(** utils.go:111-116 currentLevelSizeItems. *)
Definition current_level_size (level numLevels : nat) (lv : list nat) : option nat :=
  if numLevels <=? level then Some 0
  else do b <- nth_error lv (level + 1); do a <- nth_error lv level; sub b a.

(** The copy loops: dst[dpos + i] = src[spos + i] for i < cnt, with [gets] as in [merge_loop]. *)
Fixpoint copy_loop (gets : list C -> nat -> option C) (cnt : nat) (dst : list C) (dpos spos : nat) : option (list C) :=
  match cnt with
  | O => Some dst
  | S c => do x <- gets dst spos; do dst <- wr dpos x dst; copy_loop gets c dst (dpos + 1) (spos + 1)
  end.

(** items_sketch.go:1088-1120 populateItemWorkArrays. *)
Fixpoint populate_loop (cnt : nat) (lvl : nat) (workbuf : list C) (worklevels : list nat)
    (myNum : nat) (myLv : list nat) (myItems : list C) (otherNum : nat) (otherLv : list nat) (otherItems : list C)
    : option (list C * list nat) :=
  match cnt with
  | O => Some (workbuf, worklevels)
  | S c =>
    do selfPop <- current_level_size lvl myNum myLv;
    do otherPop <- current_level_size lvl otherNum otherLv;
    do w <- nth_error worklevels lvl;
    do worklevels <- wr (lvl + 1) (w + selfPop + otherPop) worklevels;
    do workbuf <-
      (if (0 <? selfPop) && (otherPop =? 0) then
         do a <- nth_error myLv lvl; copy_loop (fun _ => nth_error myItems) selfPop workbuf w a
       else if (selfPop =? 0) && (0 <? otherPop) then
         do b <- nth_error otherLv lvl; copy_loop (fun _ => nth_error otherItems) otherPop workbuf w b
       else if (0 <? selfPop) && (0 <? otherPop) then
         do a <- nth_error myLv lvl;
         do b <- nth_error otherLv lvl;
         merge_sorted myItems a selfPop otherItems b otherPop workbuf w
       else Some workbuf);
    populate_loop c (lvl + 1) workbuf worklevels myNum myLv myItems otherNum otherLv otherItems
  end.
Definition populate_work_arrays (workbuf : list C) (worklevels : list nat) (provisional myNum : nat) (myLv : list nat) (myItems : list C)
    (otherNum : nat) (otherLv : list nat) (otherItems : list C) : option (list C * list nat) :=
  do worklevels <- wr 0 0 worklevels;
  do selfPopZero <- current_level_size 0 myNum myLv;
  do a <- nth_error myLv 0;
  do workbuf <- copy_loop (fun _ => nth_error myItems) selfPopZero workbuf 0 a;
  do worklevels <- wr 1 selfPopZero worklevels;
  populate_loop (provisional - 1) 1 workbuf worklevels myNum myLv myItems otherNum otherLv otherItems.

(** items_sketch.go:1122-1223 generalItemsCompress, called with inBuf == outBuf. *)
Fixpoint general_loop (fuel : nat) (k0 : N) (m0 numLevels current target curLevel : nat) (buf : list C) (inLv outLv : list nat)
    (l0sorted : bool) (r : list nat) : option (nat * nat * nat * list C * list nat * list nat) :=
  match fuel with
  | O => None
  | S f =>
    do inLv <- (if curLevel =? numLevels - 1 then
                  do b <- nth_error inLv (curLevel + 1); wr (curLevel + 2) b inLv
                else Some inLv);
    do rawBeg <- nth_error inLv curLevel;
    do rawLim <- nth_error inLv (curLevel + 1);
    do rawPop <- sub rawLim rawBeg;
    do cap <- level_capacity k0 numLevels curLevel m0;
    do o <- nth_error outLv curLevel;
    if (current <? target) || (rawPop <? cap) then
      do buf <- copy_loop (@nth_error C) rawPop buf o rawBeg;
      do outLv <- wr (curLevel + 1) (o + rawPop) outLv;
      if curLevel =? numLevels - 1 then Some (numLevels, target, current, buf, outLv, r)
      else general_loop f k0 m0 numLevels current target (curLevel + 1) buf inLv outLv l0sorted r
    else
      do top <- nth_error inLv (curLevel + 2);
      do popAbove <- sub top rawLim;
      let oddPop := rawPop mod 2 =? 1 in
      let adjBeg := if oddPop then rawBeg + 1 else rawBeg in
      let adjPop := if oddPop then rawPop - 1 else rawPop in
      let half := adjPop / 2 in
      do (buf, outLv) <- (if oddPop then
                            do x <- nth_error buf rawBeg;
                            do buf <- wr o x buf;
                            do outLv <- wr (curLevel + 1) (o + 1) outLv;
                            Some (buf, outLv)
                          else do outLv <- wr (curLevel + 1) o outLv; Some (buf, outLv));
      do (buf, _) <- halve_and_merge ((curLevel =? 0) && negb l0sorted) buf adjBeg adjPop half rawLim popAbove (length r);
      let r := curLevel :: r in
      do current <- sub current half;
      do b <- sub rawLim half;
      do inLv <- wr (curLevel + 1) b inLv;
      do (numLevels, target) <- (if curLevel =? numLevels - 1 then
                                   do c <- level_capacity k0 (numLevels + 1) 0 m0;
                                   Some (numLevels + 1, target + c)
                                 else Some (numLevels, target));
      if curLevel =? numLevels - 1 then Some (numLevels, target, current, buf, outLv, r)
      else general_loop f k0 m0 numLevels current target (curLevel + 1) buf inLv outLv l0sorted r
  end.
(** The fuel bounds the number of levels processed; the inLevels array, of fixed length, bounds it too. *)
Definition general_items_compress (k0 : N) (m0 numLevelsIn : nat) (buf : list C) (inLv outLv : list nat) (l0sorted : bool) (r : list nat)
    : option (nat * nat * nat * list C * list nat * list nat) :=
  do a <- nth_error inLv numLevelsIn;
  do b <- nth_error inLv 0;
  do current <- sub a b;
  do target <- compute_total_item_capacity k0 m0 numLevelsIn;
  do outLv <- wr 0 0 outLv;
  general_loop (length inLv) k0 m0 numLevelsIn current target 0 buf inLv outLv l0sorted r.

Definition is_empty (s : kll) : bool := (n s =? 0)%N.
(** items_sketch.go:236-238 IsEstimationMode. *)
Definition is_estimation_mode (s : kll) : bool := 1 <? num_levels s.
(** items_sketch.go:215-217 GetNumRetained. *)
Definition get_num_retained (s : kll) : option nat :=
  do a <- nth_error (levels s) (num_levels s); do b <- nth_error (levels s) 0; sub a b.
(** items_sketch.go:243-250 GetTotalItemsArray. *)
Definition total_items_array (s : kll) : list C := if is_empty s then repeat zero (N.to_nat (k s)) else items s.
(** items_sketch.go:220-233 GetMinItem, GetMaxItem. *)
Definition get_min_item (s : kll) : option C := if is_empty s then None else Some (min_item s).
Definition get_max_item (s : kll) : option C := if is_empty s then None else Some (max_item s).

Fixpoint update_all (s : kll) (r : list nat) (l : list C) : option (kll * list nat) :=
  match l with
  | [] => Some (s, r)
  | x :: t => do (s, r) <- kll_update s r x; update_all s r t
  end.

(** items_sketch.go:734-862 mergeItemsSketch (and 468-474 Merge), for two distinct sketches. *)
Definition kll_merge (s : kll) (other : kll) (r : list nat) : option (kll * list nat) :=
  if is_empty other then Some (s, r) else
  let myEmpty := is_empty s in
  let myMin := min_item s in
  let myMax := max_item s in
  let myMinK := min_k s in
  let finalN := (n s + n other)%N in
  let otherItems := total_items_array other in
  do o0 <- nth_error (levels other) 0;
  do o1 <- nth_error (levels other) 1;
  do l0 <- sl_get o0 (o1 - o0) otherItems;
  do (s1, r) <- update_all s r l0;
  let myCurItems := total_items_array s1 in
  do (nl, lv, it, r) <-
    (if 1 <? num_levels other then
       do ret <- get_num_retained s1;
       do a <- nth_error (levels other) (num_levels other);
       do b <- nth_error (levels other) 1;
       do above <- sub a b;
       let workbuf := repeat zero (ret + above) in
       let ub := ub_on_num_levels finalN in
       let worklevels := repeat 0 (ub + 2) in
       let outlevels := repeat 0 (ub + 2) in
       let provisional := Nat.max (num_levels s1) (num_levels other) in
       do (workbuf, worklevels) <- populate_work_arrays workbuf worklevels provisional
              (num_levels s1) (levels s1) myCurItems (num_levels other) (levels other) otherItems;
       do (numLv, target, cur, workbuf, outlevels, r) <-
          general_items_compress (k s1) (m s1) provisional workbuf worklevels outlevels (l0_sorted s1) r;
       let base := if target =? length myCurItems then myCurItems else repeat zero target in
       do free <- sub target cur;
       do ol0 <- nth_error outlevels 0;
       do it <- copy_loop (fun _ => nth_error workbuf) cur base free ol0;
       do shift <- sub free ol0;
       let len := if length (levels s1) <? numLv + 1 then numLv + 1 else length (levels s1) in
       do ol <- sl_get 0 (numLv + 1) outlevels;
       if len <? numLv + 1 then None else
       Some (numLv, map (fun x => x + shift) ol ++ repeat 0 (len - (numLv + 1)), it, r)
     else Some (num_levels s1, levels s1, myCurItems, r));
  let mk := if is_estimation_mode other then N.min myMinK (min_k other) else min_k s1 in
  let '(mn, mx, hmm) :=
     if myEmpty then (min_item other, max_item other, has_min_max other)
     else (if less myMin (min_item other) then myMin else min_item other,
           if less (max_item other) myMax then myMax else max_item other, true) in
  Some (mkKll (k s1) (m s1) mk nl (l0_sorted s1) finalN lv it mn mx hmm, r).

(** ** The sorted view (items_sketch_sorted_view.go). The parallel arrays quantiles and weights, always moved in tandem,
    are one array of pairs. *)

Definition wrp := @wr (C * N).

(** items_sketch_sorted_view.go:266-294 tandemMerge: the merge loop, then the copy of what is left. *)
Fixpoint tandem_loop (fuel : nat) (src dst : list (C * N)) (i1 to1 i2 to2 d : nat) : option (list (C * N)) :=
  match fuel with
  | O => None
  | S f =>
    if (i1 <? to1) && (i2 <? to2) then
      do x <- nth_error src i1;
      do y <- nth_error src i2;
      if less (fst x) (fst y) || ceq (fst x) (fst y) then
        do dst <- wr d x dst; tandem_loop f src dst (i1 + 1) to1 i2 to2 (d + 1)
      else
        do dst <- wr d y dst; tandem_loop f src dst i1 to1 (i2 + 1) to2 (d + 1)
    else if i1 <? to1 then
      do sl <- sl_get i1 (to1 - i1) src; sl_put d sl dst
    else if i2 <? to2 then
      do sl <- sl_get i2 (to2 - i2) src; sl_put d sl dst
    else Some dst
  end.
Definition tandem_merge (src dst : list (C * N)) (lv : list nat) (s1 n1 s2 n2 : nat) : option (list (C * N)) :=
  do f1 <- nth_error lv s1;
  do t1 <- nth_error lv (s1 + n1);
  do f2 <- nth_error lv s2;
  do t2 <- nth_error lv (s2 + n2);
  tandem_loop (t1 - f1 + (t2 - f2) + 1) src dst f1 t1 f2 t2 f1.

(** items_sketch_sorted_view.go:252-264 blockyTandemMergeSortRecursion: returns (src, dst). *)
Fixpoint blocky_rec (fuel : nat) (src dst : list (C * N)) (lv : list nat) (start num : nat) : option (list (C * N) * list (C * N)) :=
  match fuel with
  | O => None
  | S f =>
    if num =? 1 then Some (src, dst) else
    let n1 := num / 2 in
    let n2 := num - n1 in
    do (dst, src) <- blocky_rec f dst src lv start n1;
    do (dst, src) <- blocky_rec f dst src lv (start + n1) n2;
    do dst <- tandem_merge src dst lv start n1 (start + n1) n2;
    Some (src, dst)
  end.
(** items_sketch_sorted_view.go:238-250 blockyTandemMergeSort. *)
Definition blocky_tandem_merge_sort (q : list (C * N)) (lv : list nat) (num : nat) : option (list (C * N)) :=
  if num =? 1 then Some q
  else do (_, dst) <- blocky_rec (num + 1) q q lv 0 num; Some dst.

(** The loop of items_sketch_sorted_view.go:215-232: weights and the non-empty levels. *)
Fixpoint view_levels_loop (cnt srcLevel dstLevel : nat) (weight : N) (lv : list nat) (offset : nat) (w : list N) (my : list nat)
    : option (list N * list nat * nat) :=
  match cnt with
  | O => Some (w, my, dstLevel)
  | S c =>
    do a <- nth_error lv srcLevel;
    do b <- nth_error lv (srcLevel + 1);
    do from <- sub a offset;
    do to <- sub b offset;
    if from <? to then
      do w <- sl_put from (repeat weight (to - from)) w;
      do my <- wr dstLevel from my;
      do my <- wr (dstLevel + 1) to my;
      view_levels_loop c (srcLevel + 1) (dstLevel + 1) (weight * 2)%N lv offset w my
    else view_levels_loop c (srcLevel + 1) dstLevel (weight * 2)%N lv offset w my
  end.

(** utils.go:37-44 convertToCumulative. *)
Fixpoint convert_to_cumulative (subtotal : N) (l : list N) : list N :=
  match l with [] => [] | x :: t => (subtotal + x)%N :: convert_to_cumulative (subtotal + x)%N t end.

Record view := mkView { quantiles : list C; cum_weights : list N; total_n : N }.

(** items_sketch_sorted_view.go:38-76 newItemsSketchSortedView and 207-236 populateFromSketch. *)
Definition sorted_view (s : kll) : option view :=
  if is_empty s then None else
  let src := total_items_array s in
  do l0 <- nth_error (levels s) 0;
  do l1 <- nth_error (levels s) 1;
  do src <- (if l0_sorted s then Some src else do _ <- sub l1 l0; sort_slice src l0 (l1 - l0));
  do top <- nth_error (levels s) (num_levels s);
  do num <- sub top l0;
  do q <- sl_get l0 num src;
  do (w, my, nl) <- view_levels_loop (num_levels s) 0 0 1%N (levels s) l0 (repeat 0%N num) (repeat 0 (num_levels s + 1));
  do res <- blocky_tandem_merge_sort (combine q w) my nl;
  Some (mkView (map fst res) (convert_to_cumulative 0 (map snd res)) (n s)).

(** items_sketch_sorted_view.go:78-95 GetRank: the numerator of the returned float64(cumWeights[index]) / float64(totalN). *)
Definition get_rank (v : view) (x : C) (inclusive : bool) : option N :=
  do index <- find_with_inequality less ceq (quantiles v) 0 (Z.of_nat (length (quantiles v)) - 1) x (if inclusive then LE else LT);
  if (index =? -1)%Z then Some 0%N else at_ (cum_weights v) index.

(** items_sketch_sorted_view.go:97-113 and 157-174 GetQuantile, getQuantileIndex, after the conversion of the normalised rank to
    the natural rank [nat_rank] (internal/quantiles/utils.go:57-66, floating point: natural_rank in RankModel.v). *)
Definition get_quantile (v : view) (nat_rank : N) (inclusive : bool) : option C :=
  do index <- find_with_inequality N.ltb N.eqb (cum_weights v) 0 (Z.of_nat (length (quantiles v)) - 1) nat_rank (if inclusive then GE else GT);
  at_ (quantiles v) (if (index =? -1)%Z then Z.of_nat (length (quantiles v)) - 1 else index)%Z.

(** items_sketch_sorted_view.go:184-187: the writes GetPartitionBoundaries makes to the (cached) view. *)
Definition partition_boundaries_writes (v : view) (s : kll) : option view :=
  do cw <- wr 0 1%N (cum_weights v);
  do cw <- wr (length cw - 1) (total_n v) cw;
  do q <- wr 0 (min_item s) (quantiles v);
  do q <- wr (length q - 1) (max_item s) q;
  Some (mkView q cw (total_n v)).

(** items_sketch_iterator.go: the items with their weights, in the order Next yields them. *)
Fixpoint iterate_level (cnt : nat) (it : list C) (i : nat) (w : N) : option (list (C * N)) :=
  match cnt with
  | O => Some []
  | S c => do x <- nth_error it i; do rest <- iterate_level c it (i + 1) w; Some ((x, w) :: rest)
  end.
Fixpoint iterate_levels (cnt lvl : nat) (lv : list nat) (it : list C) (w : N) : option (list (C * N)) :=
  match cnt with
  | O => Some []
  | S c =>
    do a <- nth_error lv lvl;
    do b <- nth_error lv (lvl + 1);
    do xs <- iterate_level (b - a) it a w;
    do rest <- iterate_levels c (lvl + 1) lv it (w * 2)%N;
    Some (xs ++ rest)
  end.
Definition iterate (s : kll) : option (list (C * N)) :=
  iterate_levels (length (levels s) - 1) 0 (levels s) (total_items_array s) 1%N.
End Kll.
