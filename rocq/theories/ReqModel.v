(** * Model of req/: the relative-error quantiles sketch.

    [C] is the type of float32 values other than NaN, with -0 and 0 identified; [less] is <, [ceq] is ==, [zero] is 0. A float32
    that may be NaN is an [option C], [None] being NaN. [sort] stands for slices.Sort applied to a sub-slice. The random bits
    are an arbitrary infinite sequence [rnd]; the log [r] threaded through the functions lists the levels compacted so far, most
    recent first, and a compaction that draws a bit draws [rnd (length r)]. (The code keeps no such log: it is there for the
    bits and for the error bound.)

    The section size is kept both as an int and as a float32. The type [F] and the operations [f_of] (float32(int)), [f_shrink]
    (float32(float64(x) / math.Sqrt2)) and [f_half] (int(math.Round(float64(x) / 2.0)), never negative here) are parameters.

    Simplifications: int and int64 counters are unbounded (ReqProps proves the bounds that matter: the numbers packed in 32 bits
    by computeCompactionRange, the byte numSections, the shift int64(1) << (numSections-1), modelled with their widths). len and
    cap of an items slice are always equal. The cached sortedView pointer is not represented: a view is a function of the sketch;
    the sorting of the compactors that refreshSortedView does on the side is therefore not kept either. *)
From Verif Require Import Base Bytes Arr BitPackModel SearchModel.
Local Open Scope nat_scope.

Section Req.
Context {C : Type}.
Variables less ceq : C -> C -> bool.
Variable zero : C.
Variable sort : list C -> list C.
Variable rnd : nat -> bool.
Context {F : Type}.
Variable f_of : nat -> F.
Variable f_shrink : F -> F.
Variable f_half : F -> nat.

(** compactor.go:38-50 compactor. *)
Record compactor := mkComp {
  c_items : list C; c_count : nat; c_hra : bool; c_sorted : bool; c_nsec : nat; c_coin : bool; c_szf : F; c_state : N;
  c_ssize : nat; c_delta : nat; c_lgw : nat }.

Definition c_cap (c : compactor) : nat := length (c_items c).
Definition set_items (c : compactor) (it : list C) (cnt : nat) (srt : bool) : compactor :=
  mkComp it cnt (c_hra c) srt (c_nsec c) (c_coin c) (c_szf c) (c_state c) (c_ssize c) (c_delta c) (c_lgw c).

(** compactor.go:160-162 NomCapacity; sketch.go:33 nomCapMul = 2. *)
Definition nom_cap (c : compactor) : nat := 2 * c_nsec c * c_ssize c.

(** compactor.go:52-69 newCompactor; sketch.go:34 initNumberOfSections = 3. *)
Definition new_compactor (lgWeight : nat) (hra : bool) (k : nat) : compactor :=
  let nc := 2 * 3 * k in
  mkComp (repeat zero (2 * nc)) 0 hra true 3 false (f_of k) 0 k nc lgWeight.

(** The start of the active region: c.items[start : start+count]. *)
Definition c_start (c : compactor) : option nat := if c_hra c then sub (c_cap c) (c_count c) else Some 0.

(** compactor.go:550-563 ensureCapacity. *)
Definition ensure_capacity (c : compactor) (newCap : nat) : option compactor :=
  if c_cap c <? newCap then
    do src <- c_start c;
    do dst <- (if c_hra c then sub newCap (c_count c) else Some 0);
    do sl <- sl_get src (c_count c) (c_items c);
    do out <- sl_put dst sl (repeat zero newCap);
    Some (set_items c out (c_count c) (c_sorted c))
  else Some c.
(** compactor.go:543-548 ensureSpace. *)
Definition ensure_space (c : compactor) (space : nat) : option compactor :=
  if c_cap c <? c_count c + space then ensure_capacity c (c_count c + space + c_delta c) else Some c.

(** compactor.go:284-295 Append. *)
Definition append (c : compactor) (x : C) : option compactor :=
  do c <- ensure_space c 1;
  do index <- (if c_hra c then sub (c_cap c) (c_count c + 1) else Some (c_count c));
  do it <- wr index x (c_items c);
  Some (set_items c it (c_count c + 1) false).

(** compactor.go:304-313 Item. *)
Definition item (c : compactor) (off : nat) : option C :=
  do st <- c_start c; nth_error (c_items c) (st + off).

(** compactor.go:360-377 Sort. *)
Definition c_sort (c : compactor) : option compactor :=
  if c_sorted c then Some c
  else
    do st <- c_start c;
    do sl <- sl_get st (c_count c) (c_items c);
    do it <- sl_put st (sort sl) (c_items c);
    Some (set_items c it (c_count c) true).

(** compactor.go:440-463: the loop of mergeSortIn in high rank accuracy mode, [cnt] iterations from position k. *)
Fixpoint merge_up (cnt : nat) (a : list C) (i capA : nat) (b : list C) (j capB k : nat) : option (list C) :=
  match cnt with
  | O => Some a
  | S cnt =>
    if (i <? capA) && (j <? capB) then
      do x <- nth_error a i;
      do y <- nth_error b j;
      if negb (less y x) then do a <- wr k x a; merge_up cnt a (i + 1) capA b j capB (k + 1)
      else do a <- wr k y a; merge_up cnt a i capA b (j + 1) capB (k + 1)
    else if i <? capA then do x <- nth_error a i; do a <- wr k x a; merge_up cnt a (i + 1) capA b j capB (k + 1)
    else if j <? capB then do y <- nth_error b j; do a <- wr k y a; merge_up cnt a i capA b (j + 1) capB (k + 1)
    else Some a
  end.
(** compactor.go:465-488: the loop in low rank accuracy mode. [i] and [j] are one more than the variables of that name in the
    code, which end at -1; k is the number of iterations left, minus one. *)
Fixpoint merge_down (cnt : nat) (a : list C) (i : nat) (b : list C) (j : nat) : option (list C) :=
  match cnt with
  | O => Some a
  | S k =>
    if (0 <? i) && (0 <? j) then
      do x <- nth_error a (i - 1);
      do y <- nth_error b (j - 1);
      if negb (less x y) then do a <- wr k x a; merge_down k a (i - 1) b j
      else do a <- wr k y a; merge_down k a i b (j - 1)
    else if 0 <? i then do x <- nth_error a (i - 1); do a <- wr k x a; merge_down k a (i - 1) b j
    else if 0 <? j then do y <- nth_error b (j - 1); do a <- wr k y a; merge_down k a i b (j - 1)
    else Some a
  end.
(** compactor.go:432-493 mergeSortIn. [oit], [ocnt], [osrt]: items, count and sorted of the other compactor. *)
Definition c_merge_sort_in (c : compactor) (oit : list C) (ocnt : nat) (osrt : bool) : res compactor :=
  if negb (c_sorted c) || negb osrt then Err
  else of_opt (
    do c <- ensure_space c ocnt;
    let tot := c_count c + ocnt in
    do it <- (if c_hra c then
                do tgt <- sub (c_cap c) tot;
                do i <- sub (c_cap c) (c_count c);
                do j <- sub (length oit) ocnt;
                merge_up tot (c_items c) i (c_cap c) oit j (length oit) tgt
              else merge_down tot (c_items c) (c_count c) oit ocnt);
    Some (set_items c it tot true)).

(** compactor.go:514-520: every second item of the range goes to [promoted]. *)
Fixpoint promote_loop (fuel : nat) (it : list C) (i end_ : nat) (promoted : list C) (j : nat) : option (list C) :=
  match fuel with
  | O => None
  | S f =>
    if i <? end_ then
      do x <- nth_error it i;
      do promoted <- wr j x promoted;
      promote_loop f it (i + 2) end_ promoted (j + 1)
    else Some promoted
  end.
(** compactor.go:495-535 promoteEvensOrOddsInto: the compactor, sorted, the next one and the number of items promoted. *)
Definition promote_into (c next : compactor) (startOff endOff : nat) (odds : bool) : res (compactor * compactor * nat) :=
  let* base := of_opt (c_start c) in
  let start := base + startOff in
  let end_ := base + endOff in
  let* c := of_opt (c_sort c) in
  let* rangeSize := of_opt (sub endOff startOff) in
  if Nat.odd rangeSize then Err
  else
    let promoteCount := rangeSize / 2 in
    let* promoted := of_opt (promote_loop (rangeSize + 1) (c_items c) (start + if odds then 1 else 0) end_ (repeat zero promoteCount) 0) in
    let* next := c_merge_sort_in next promoted promoteCount true in
    Ok (c, next, promoteCount).

(** compactor.go:114-116 numberOfTrailingOnes. *)
Fixpoint trailing_ones_pos (p : positive) : nat := match p with xI p => S (trailing_ones_pos p) | xO _ => 0 | xH => 1 end.
Definition trailing_ones (v : N) : nat := match v with N0 => 0 | Npos p => trailing_ones_pos p end.

(** int64(1) << (numSections - 1), where numSections - 1 is computed in a byte: 0 when the shift is 64 or more, the least int64
    when it is 63. *)
Definition section_limit (nsec : nat) : Z :=
  let sh := Z.of_nat ((nsec + 255) mod 256) in
  if (64 <=? sh)%Z then 0%Z else if (sh =? 63)%Z then (- 2 ^ 63)%Z else (2 ^ sh)%Z.

(** compactor.go:214-227 ensureEnoughSections; sketch.go:31 minK = 4; compactor.go:246-248 nearestEven. *)
Definition nearest_even (f : F) : nat := 2 * f_half f.
Definition ensure_enough_sections (c : compactor) : option (compactor * bool) :=
  if (section_limit (c_nsec c) <=? Z.of_N (c_state c))%Z && (4 <? c_ssize c) then
    let szf := f_shrink (c_szf c) in
    let ne := nearest_even szf in
    if 4 <=? ne then
      let c := mkComp (c_items c) (c_count c) (c_hra c) (c_sorted c) ((2 * c_nsec c) mod 256) (c_coin c) szf (c_state c) ne (c_delta c) (c_lgw c) in
      do c <- ensure_capacity c (2 * nom_cap c);
      Some (c, true)
    else Some (c, false)
  else Some (c, false).

(** compactor.go:229-244 computeCompactionRange: low and high packed in one int64. *)
Definition compaction_range (c : compactor) (secs : nat) : Z :=
  let cnt := Z.of_nat (c_count c) in
  let nonCompact := (Z.of_nat (nom_cap c / 2) + (Z.of_nat (c_nsec c) - Z.of_nat secs) * Z.of_nat (c_ssize c))%Z in
  let nonCompact := if Z.odd (cnt - nonCompact) then (nonCompact + 1)%Z else nonCompact in
  let '(low, high) := if c_hra c then (0, cnt - nonCompact)%Z else (nonCompact, cnt) in
  (high * 2 ^ 32 + low)%Z.

(** compactor.go:537-541 TrimCount, to c.Count() - removed. *)
Definition trim_count (c : compactor) (removed : nat) : option compactor :=
  do newCount <- sub (c_count c) removed;
  Some (set_items c (c_items c) newCount (c_sorted c)).

(** compactor.go:118-154 Compact: the two compactors, deltaRetItems and deltaNomSize. [bit] is the outcome of rand.IntN(2) == 1. *)
Definition compact (c next : compactor) (bit : bool) : res (compactor * compactor * Z * Z) :=
  let startRet := Z.of_nat (c_count c) in
  let startNom := Z.of_nat (nom_cap c) in
  let secs := Nat.min (trailing_ones (c_state c) + 1) (c_nsec c) in
  let range := compaction_range c secs in
  let cstart := (range mod 2 ^ 32)%Z in
  let cend := (range / 2 ^ 32)%Z in
  if (cend - cstart <? 2)%Z then Err
  else
    let coin := if N.odd (c_state c) then negb (c_coin c) else bit in
    let c := mkComp (c_items c) (c_count c) (c_hra c) (c_sorted c) (c_nsec c) coin (c_szf c) (c_state c) (c_ssize c) (c_delta c) (c_lgw c) in
    let* (c, next, promoted) := promote_into c next (Z.to_nat cstart) (Z.to_nat cend) coin in
    let* c := of_opt (trim_count c (Z.to_nat (cend - cstart))) in
    let c := mkComp (c_items c) (c_count c) (c_hra c) (c_sorted c) (c_nsec c) (c_coin c) (c_szf c) (c_state c + 1) (c_ssize c) (c_delta c) (c_lgw c) in
    let* (c, _) := of_opt (ensure_enough_sections c) in
    Ok (c, next, (Z.of_nat (c_count c) - startRet + Z.of_nat promoted)%Z, (Z.of_nat (nom_cap c) - startNom)%Z).

(** compactor.go:196-197: for c.ensureEnoughSections() {}. *)
Fixpoint ensure_all_sections (fuel : nat) (c : compactor) : option compactor :=
  match fuel with
  | O => None
  | S f => do (c, more) <- ensure_enough_sections c; if more : bool then ensure_all_sections f c else Some c
  end.
(** compactor.go:190-212 Merge. *)
Definition c_merge (c other : compactor) : res compactor :=
  if negb (c_lgw c =? c_lgw other) then Err
  else
    let c := mkComp (c_items c) (c_count c) (c_hra c) (c_sorted c) (c_nsec c) (c_coin c) (c_szf c) (N.lor (c_state c) (c_state other)) (c_ssize c) (c_delta c) (c_lgw c) in
    let* c := of_opt (ensure_all_sections 64 c) in
    let* c := of_opt (c_sort c) in
    let* o := of_opt (c_sort other) in
    if c_count c <? c_count o then
      let c' := mkComp (c_items o) (c_count o) (c_hra c) (c_sorted c) (c_nsec c) (c_coin c) (c_szf c) (c_state c) (c_ssize c) (c_delta o) (c_lgw c) in
      c_merge_sort_in c' (c_items c) (c_count c) (c_sorted o)
    else c_merge_sort_in c (c_items o) (c_count o) (c_sorted o).

(** ** The sketch *)

(** sketch.go:60-70 Sketch. *)
Record sketch := mkReq {
  r_n : N; r_comps : list compactor; r_ret : Z; r_nom : Z; r_min : option C; r_max : option C; r_k : nat; r_hra : bool }.

(** sketch.go:104-111 computeMaxNomSize. *)
Definition compute_max_nom (cs : list compactor) : Z := fold_right (fun c a => Z.of_nat (nom_cap c) + a)%Z 0%Z cs.
(** sketch.go:694-700 computeRetainedItems. *)
Definition compute_retained (cs : list compactor) : Z := fold_right (fun c a => Z.of_nat (c_count c) + a)%Z 0%Z cs.

(** sketch.go:97-101 grow: the compactor appended. *)
Definition grown (levels : nat) (hra : bool) (k : nat) : compactor := new_compactor (levels mod 256) hra k.
Definition grow (s : sketch) : sketch :=
  let cs := r_comps s ++ [grown (length (r_comps s)) (r_hra s) (r_k s)] in
  mkReq (r_n s) cs (r_ret s) (compute_max_nom cs) (r_min s) (r_max s) (r_k s) (r_hra s).

(** sketch.go:72-95 NewSketch and validateK. The extremes start as the zero value of float32, which is 0 and not NaN. *)
Definition req_new (k : nat) (hra : bool) : res sketch :=
  if Nat.odd k || (k <? 4) || (1024 <? k) then Err
  else Ok (grow (mkReq 0 [] 0 0 (Some zero) (Some zero) k hra)).
(** sketch.go:594-603 Reset. *)
Definition req_reset (s : sketch) : sketch := grow (mkReq 0 [] 0 0 None None (r_k s) (r_hra s)).

Definition is_empty (s : sketch) : bool := (r_n s =? 0)%N.

(** sketch.go:702-726: the loop of compress. The levels already visited are [done], those from index i = length done on are the
    list [rest]; the loop touches only level i and the one above. Each level is visited once, and a level is added only when
    the top one is compacted into it. *)
Fixpoint compress_loop (fuel : nat) (hra : bool) (k : nat) (done rest : list compactor) (ret nom : Z) (r : list nat)
    : res (list compactor * Z * Z * list nat) :=
  match fuel, rest with
  | _, [] => Ok (done, ret, nom, r)
  | O, _ => Panic
  | S f, c :: above =>
    if nom_cap c <=? c_count c then
      let '(above, nom) := match above with
        | [] => let above := [grown (length done + 1) hra k] in (above, compute_max_nom (done ++ c :: above))
        | _ => (above, nom) end in
      match above with
      | [] => Panic
      | next :: above =>
        let* (c, next, dret, dnom) := compact c next (rnd (length r)) in
        compress_loop f hra k (done ++ [c]) (next :: above) (ret + dret)%Z (nom + dnom)%Z (length done :: r)
      end
    else compress_loop f hra k (done ++ [c]) above ret nom r
  end.
(** sketch.go:702-726 compress. The fuel is a bound on the number of levels visited. *)
Definition compress (s : sketch) (r : list nat) : res (sketch * list nat) :=
  let* (cs, ret, nom, r) := compress_loop (length (r_comps s) + Z.to_nat (compute_retained (r_comps s)) + 1) (r_hra s) (r_k s) [] (r_comps s) (r_ret s) (r_nom s) r in
  Ok (mkReq (r_n s) cs ret nom (r_min s) (r_max s) (r_k s) (r_hra s), r).

(** Go's < on float32, and the built-in min and max: NaN if either is. *)
Definition f_less (a b : option C) : bool := match a, b with Some x, Some y => less x y | _, _ => false end.
Definition f_min (x : C) (m : option C) : option C := match m with Some y => Some (if less y x then y else x) | None => None end.
Definition f_max (x : C) (m : option C) : option C := match m with Some y => Some (if less x y then y else x) | None => None end.

(** sketch.go:634-661 Update. *)
Definition req_update (s : sketch) (r : list nat) (v : option C) : res (sketch * list nat) :=
  match v with
  | None => Ok (s, r)
  | Some x =>
    let mn := if is_empty s then Some x else f_min x (r_min s) in
    let mx := if is_empty s then Some x else f_max x (r_max s) in
    match r_comps s with
    | [] => Panic
    | c :: cs =>
      let* c := of_opt (append c x) in
      let ret := (r_ret s + 1)%Z in
      if (r_nom s <=? ret)%Z then
        let* c := of_opt (c_sort c) in
        compress (mkReq (r_n s + 1) (c :: cs) ret (r_nom s) mn mx (r_k s) (r_hra s)) r
      else Ok (mkReq (r_n s + 1) (c :: cs) ret (r_nom s) mn mx (r_k s) (r_hra s), r)
    end
  end.

(** sketch.go:563-566: grow until there are as many levels. *)
Fixpoint grow_times (cnt : nat) (s : sketch) : sketch := match cnt with O => s | S c => grow_times c (grow s) end.
(** sketch.go:568-573: Merge at every level of the other sketch. *)
Fixpoint merge_levels (cs os : list compactor) : res (list compactor) :=
  match os, cs with
  | [], _ => Ok cs
  | _ :: _, [] => Panic
  | o :: os, c :: cs => let* c := c_merge c o in let* cs := merge_levels cs os in Ok (c :: cs)
  end.
(** sketch.go:544-591 Merge. *)
Definition req_merge (s other : sketch) (r : list nat) : res (sketch * list nat) :=
  if is_empty other then Ok (s, r)
  else if negb (Bool.eqb (r_hra s) (r_hra other)) then Err
  else
    let mn := if (match r_min s with None => true | _ => false end) || f_less (r_min other) (r_min s) then r_min other else r_min s in
    let mx := if (match r_max s with None => true | _ => false end) || f_less (r_max s) (r_max other) then r_max other else r_max s in
    let s := grow_times (length (r_comps other) - length (r_comps s)) s in
    let* cs := merge_levels (r_comps s) (r_comps other) in
    let s := mkReq (r_n s + r_n other) cs (compute_retained cs) (compute_max_nom cs) mn mx (r_k s) (r_hra s) in
    let* (s, r) := (if (r_nom s <=? r_ret s)%Z then compress s r else Ok (s, r)) in
    if (r_nom s <=? r_ret s)%Z then Err else Ok (s, r).

(** sketch.go:240-253 MaxItem and MinItem, 501-503 IsEstimationMode. *)
Definition min_item (s : sketch) : res (option C) := if is_empty s then Err else Ok (r_min s).
Definition max_item (s : sketch) : res (option C) := if is_empty s then Err else Ok (r_max s).
Definition is_estimation_mode (s : sketch) : bool := 1 <? length (r_comps s).

(** sketch.go:750-762 isExactRank: whether RankLowerBound and RankUpperBound (sketch.go:390-446) return the rank itself. The rank is
    r/n here, and the comparison of quotients of float64 is made on the integers. *)
Definition is_exact_rank (s : sketch) (r : N) : bool :=
  let base := N.of_nat (r_k s * 3) in
  (length (r_comps s) =? 1) || (r_n s <=? base)%N || (if r_hra s then (r_n s <=? r + base)%N else (r <=? base)%N).

(** sketch.go:505-541 All: the items with their weights. An empty level would make the loop read outside the active region. *)
Fixpoint all_loop (fuel : nat) (c : compactor) (above : list compactor) (itemIndex : nat) (weight : N) : option (list (C * N)) :=
  match fuel with
  | O => None
  | S f =>
    do q <- item c itemIndex;
    if itemIndex + 1 =? c_count c then
      match above with
      | [] => Some [(q, weight)]
      | c :: above => do l <- all_loop f c above 0 (weight * 2)%N; Some ((q, weight) :: l)
      end
    else do l <- all_loop f c above (itemIndex + 1) weight; Some ((q, weight) :: l)
  end.
Definition all (s : sketch) : option (list (C * N)) :=
  if (r_ret s =? 0)%Z then Some []
  else match r_comps s with
       | [] => None
       | c :: above => all_loop (Z.to_nat (compute_retained (r_comps s)) + 1) c above 0 1%N
       end.

(** ** The sorted view. The parallel arrays quantiles and cumWeights, moved in tandem until they are accumulated, are one array
    of pairs. *)

(** sketch.go:174-219 mergeSortIn. [i], [j], [h] are one more than the variables of that name in the code. *)
Fixpoint view_merge_loop (cnt : nat) (q : list (C * N)) (i : nat) (it : list C) (j h : nat) (w : N) : option (list (C * N)) :=
  match cnt with
  | O => Some q
  | S k =>
    if (0 <? i) && (0 <? j) then
      do x <- nth_error q (i - 1);
      do y <- nth_error it (h - 1);
      if negb (less (fst x) y) then do q <- wr k x q; view_merge_loop k q (i - 1) it j h w
      else do q <- wr k (y, w) q; view_merge_loop k q i it (j - 1) (h - 1) w
    else if 0 <? i then do x <- nth_error q (i - 1); do q <- wr k x q; view_merge_loop k q (i - 1) it j h w
    else if 0 <? j then do y <- nth_error it (h - 1); do q <- wr k (y, w) q; view_merge_loop k q i it (j - 1) (h - 1) w
    else view_merge_loop k q i it j h w
  end.
Definition view_merge (hra : bool) (c : compactor) (q : list (C * N)) (count : nat) : option (list (C * N)) :=
  do c <- c_sort c;
  view_merge_loop (count + c_count c) q count (c_items c) (c_count c) (if hra then c_cap c else c_count c) (2 ^ N.of_nat (c_lgw c)).
(** sketch.go:149-157: over all compactors. *)
Fixpoint view_levels (hra : bool) (cs : list compactor) (q : list (C * N)) (count : nat) : option (list (C * N)) :=
  match cs with
  | [] => Some q
  | c :: cs => do q <- view_merge hra c q count; view_levels hra cs q (count + c_count c)
  end.

(** sketch.go:149-181: the effect of refreshSortedView on the sketch itself: every compactor is sorted in place (compactor.go:358-375). *)
Fixpoint sort_comps (cs : list compactor) : option (list compactor) :=
  match cs with [] => Some [] | c :: cs => do c <- c_sort c; do cs <- sort_comps cs; Some (c :: cs) end.
Definition queried (s : sketch) : option sketch :=
  do cs <- sort_comps (r_comps s); Some (mkReq (r_n s) cs (r_ret s) (r_nom s) (r_min s) (r_max s) (r_k s) (r_hra s)).

(** sketch.go:221-225: cumWeights[i] += cumWeights[i-1]. *)
Fixpoint accumulate (sum : N) (l : list N) : list N := match l with [] => [] | x :: t => (sum + x)%N :: accumulate (sum + x)%N t end.

(** common/quantiles/numeric_sorted_view.go:41-45 NumericSortedView. *)
Record nview := mkNView { v_q : list C; v_cw : list N; v_n : N }.

(** internal/quantiles/sorted_view.go:31-78 IncludeMinMax. *)
Definition include_min_max (q : list C) (cw : list N) (mx mn : C) : option (list C * list N) :=
  do q0 <- nth_error q 0;
  do last <- sub (length cw) 1;
  do ql <- nth_error q last;
  let adjLow := negb (ceq q0 mn) in
  let adjHigh := negb (ceq ql mx) in
  let adjLen := length cw + (if adjLow then 1 else 0) + (if adjHigh then 1 else 0) in
  if adjLen =? length cw then Some (q, cw)
  else
    let off := if adjLow then 1 else 0 in
    do aq <- sl_put off q (repeat zero adjLen);
    do ac <- sl_put off cw (repeat 0%N adjLen);
    do (aq, ac) <- (if adjLow then do aq <- wr 0 mn aq; do ac <- wr 0 1%N ac; Some (aq, ac) else Some (aq, ac));
    if adjHigh then
      do top <- nth_error cw last;
      do aq <- wr (adjLen - 1) mx aq;
      do ac <- wr (adjLen - 1) top ac;
      do ac <- wr (adjLen - 2) (top - 1)%N ac;
      Some (aq, ac)
    else Some (aq, ac).

(** sketch.go:141-169 refreshSortedView and numeric_sorted_view.go:48-57 NewNumericSortedView. NaN extremes of a sketch that is
    not empty (there are none: ReqProps) are not followed into the view. *)
Definition sorted_view (s : sketch) : res nview :=
  if is_empty s then Err
  else
    let* q := of_opt (view_levels (r_hra s) (r_comps s) (repeat (zero, 0%N) (Z.to_nat (r_ret s))) 0) in
    let cw := accumulate 0 (map snd q) in
    let* total := of_opt (do last <- sub (length cw) 1; nth_error cw last) in
    if negb (total =? r_n s)%N then Err
    else
      let* mx := of_opt (r_max s) in
      let* mn := of_opt (r_min s) in
      let* (aq, ac) := of_opt (include_min_max (map fst q) cw mx mn) in
      Ok (mkNView aq ac (r_n s)).

(** numeric_sorted_view.go:90-110 Rank: the numerator of the returned float64(cumWeights[index]) / float64(n). *)
Definition view_rank (v : nview) (x : C) (inclusive : bool) : option N :=
  do index <- find_with_inequality less ceq (v_q v) 0 (Z.of_nat (length (v_q v)) - 1) x (if inclusive then LE else LT);
  if (index =? -1)%Z then Some 0%N else at_ (v_cw v) index.
(** numeric_sorted_view.go:125-150 Quantile, after the conversion of the normalised rank to the natural rank [nat_rank]
    (internal/quantiles/utils.go:57-66, floating point: natural_rank in RankModel.v). *)
Definition view_quantile (v : nview) (nat_rank : N) (inclusive : bool) : option C :=
  do index <- find_with_inequality N.ltb N.eqb (v_cw v) 0 (Z.of_nat (length (v_cw v)) - 1) nat_rank (if inclusive then GE else GT);
  at_ (v_q v) (if (index =? -1)%Z then Z.of_nat (length (v_cw v)) - 1 else index)%Z.
End Req.
