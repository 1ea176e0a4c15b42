(** * Model of sampling/varopt_items_sketch.go, varopt_items_union.go and their encoders and decoders.

    [T] is the item type. Weights are rational numbers: float64 arithmetic is taken to be exact. NaN and infinite weights, which
    Update refuses, are [None]. The random outcomes of one update are an argument: [d_u] is the result of randFloat64NonZero
    (only the loop's result, a number of (0, 1)), rand.Intn(b) is [d_i mod b].

    Simplifications: the parallel arrays data, weights and marks are one array of slots ([v_gadget]: marks != nil; where there are
    no marks they are false and never read); the capacity of the slices, which has no effect but in String, and growArrays are
    left out; int, int64 and uint32 counters are unbounded. *)
From Verif Require Import Base Bytes Arr BitPackModel ReservoirModel.
From Coq Require Import QArith Qabs.
Local Close Scope Q_scope.
Local Open Scope nat_scope.

Notation res := BitPackModel.res.

(** Go's a < b. *)
Definition qlt (a b : Q) : bool := negb (Qle_bool b a).
(** float64(int). *)
Definition qn (n : nat) : Q := inject_Z (Z.of_nat n).

Record draw := mkDraw { d_u : Q; d_i : nat }.

Section VarOpt.
Context {T : Type}.
Variable zero : T.

Record slot := mkSlot { it : T; wt : Q; mk : bool }.

(** varopt_items_sketch.go:47-73 VarOptItemsSketch. *)
Record vo := mkVo {
  v_s : list slot; v_gadget : bool; v_k : nat; v_n : N; v_h : nat; v_m : nat; v_r : nat; v_tot : Q; v_rf : N; v_nm : Z }.

(** varopt_items_sketch.go:78, 96-128 NewVarOptItemsSketch; 130-163 newVarOptItemsSketchFromState. k: uint, below 2^63. *)
Definition var_opt_max_k : N := 2147483646.
Definition vo_make (gadget : bool) (k : N) (rf : N) : res vo :=
  if (k =? 0)%N || (var_opt_max_k <? k)%N then Err
  else Ok (mkVo [] gadget (N.to_nat k) 0 0 0 0 0 rf 0).
Definition vo_new (k rf : N) : res vo := vo_make false k rf.

(** varopt_items_sketch.go:172-175 NumSamples. *)
Definition num_samples (s : vo) : nat := Nat.min (v_k s) (v_h s + v_r s).
(** varopt_items_sketch.go:180-200 Reset. *)
Definition vo_reset (s : vo) : vo := mkVo [] (v_gadget s) (v_k s) 0 0 0 0 0 (v_rf s) 0.

(** varopt_items_sketch.go:645-650 tau, for r > 0 (otherwise it is NaN). *)
Definition tau (s : vo) : Q := (v_tot s / qn (v_r s))%Q.

(** data[from], ..., data[to]: the loops for i := from; i <= to; i++. *)
Fixpoint read_items (cnt : nat) (l : list slot) (i : nat) : option (list T) :=
  match cnt with O => Some [] | S c => do x <- nth_error l i; do r <- read_items c l (i + 1); Some (it x :: r) end.
Fixpoint read_slots (cnt : nat) (l : list slot) (i : nat) : option (list slot) :=
  match cnt with O => Some [] | S c => do x <- nth_error l i; do r <- read_slots c l (i + 1); Some (x :: r) end.

(** varopt_items_sketch.go:215-234 All. *)
Definition all_samples (s : vo) : option (list (T * Q)) :=
  do hs <- read_slots (v_h s) (v_s s) 0;
  if 0 <? v_r s then
    do rs <- read_items (num_samples s - v_h s) (v_s s) (v_h s + 1);
    Some (map (fun x => (it x, wt x)) hs ++ map (fun x => (x, tau s)) rs)
  else Some (map (fun x => (it x, wt x)) hs).

(** ** The heap *)

(** varopt_items_sketch.go:663-670 swap. *)
Definition swap (l : list slot) (i j : nat) : option (list slot) :=
  do a <- nth_error l i; do b <- nth_error l j; Some (upd j a (upd i b l)).

(** varopt_items_sketch.go:618-643 restoreTowardsLeaves: the loop. *)
Fixpoint sift_down (fuel : nat) (l : list slot) (last p child : nat) : option (list slot) :=
  match fuel with
  | O => None
  | S f =>
    if child <=? last then
      do child <- (if child + 1 <=? last then
                     do a <- nth_error l (child + 1);
                     do b <- nth_error l child;
                     Some (if qlt (wt a) (wt b) then child + 1 else child)
                   else Some child);
      do a <- nth_error l p;
      do b <- nth_error l child;
      if Qle_bool (wt a) (wt b) then Some l
      else do l <- swap l p child; sift_down f l last child (2 * child + 1)
    else Some l
  end.
Definition restore_leaves (l : list slot) (h slotIn : nat) : res (list slot) :=
  if (h =? 0) || (h - 1 <? slotIn) then Err
  else of_opt (sift_down (h + 1) l (h - 1) slotIn (2 * slotIn + 1)).

(** varopt_items_sketch.go:652-661 restoreTowardsRoot. The index of the parent is -1 when slot is 0, and is not used then. *)
Fixpoint sift_up (fuel : nat) (l : list slot) (i : nat) : option (list slot) :=
  match fuel with
  | O => None
  | S f =>
    if 0 <? i then
      let p := (i + 1) / 2 - 1 in
      do a <- nth_error l i;
      do b <- nth_error l p;
      if qlt (wt a) (wt b) then do l <- swap l i p; sift_up f l p else Some l
    else Some l
  end.

(** varopt_items_sketch.go:601-615 heapify: for j := lastNonLeaf; j >= 0; j--, with j+1 iterations left. *)
Fixpoint heapify_loop (cnt : nat) (l : list slot) (h : nat) : res (list slot) :=
  match cnt with O => Ok l | S j => let* l := restore_leaves l h j in heapify_loop j l h end.
Definition heapify (l : list slot) (h : nat) : res (list slot) :=
  if h <? 2 then Ok l else heapify_loop (h / 2) l h.

(** ** Updates *)

(** varopt_items_sketch.go:413-425 push. *)
Definition push (s : vo) (x : T) (w : Q) (mark : bool) : option vo :=
  do l <- wr (v_h s) (mkSlot x w (v_gadget s && mark)) (v_s s);
  do l <- sift_up (v_h s + 1) l (v_h s);
  Some (mkVo l (v_gadget s) (v_k s) (v_n s) (v_h s + 1) (v_m s) (v_r s) (v_tot s) (v_rf s) (if v_gadget s && mark then v_nm s + 1 else v_nm s)%Z).

(** varopt_items_sketch.go:428-455 popMinToMRegion, isMarked. *)
Definition pop_min (s : vo) : res vo :=
  if (v_h s =? 0) || negb (v_h s + v_m s + v_r s =? v_k s + 1) then Err
  else
    let* l := (if v_h s =? 1 then Ok (v_s s)
               else let* l := of_opt (swap (v_s s) 0 (v_h s - 1)) in restore_leaves l (v_h s - 1) 0) in
    let h := v_h s - 1 in
    let* x := of_opt (nth_error l h) in
    Ok (mkVo l (v_gadget s) (v_k s) (v_n s) h (v_m s + 1) (v_r s) (v_tot s) (v_rf s) (if v_gadget s && mk x then v_nm s - 1 else v_nm s)%Z).

(** varopt_items_sketch.go:578-588 pickRandomSlotInR. *)
Definition pick_in_r (s : vo) (d : draw) : res nat :=
  if v_r s =? 0 then Err
  else if v_r s =? 1 then Ok (v_h s + v_m s)
  else Ok (v_h s + v_m s + d_i d mod v_r s).

(** varopt_items_sketch.go:556-575 chooseWeightedDeleteSlot: the loop, [cnt] slots from i on. *)
Fixpoint weighted_loop (cnt : nat) (l : list slot) (i : nat) (wtCands : Q) (numToKeep : nat) (left right : Q) : option nat :=
  match cnt with
  | O => Some i
  | S c =>
    do x <- nth_error l i;
    let left := (left + qn numToKeep * wt x)%Q in
    let right := (right + wtCands)%Q in
    if qlt left right then Some i else weighted_loop c l (i + 1) wtCands numToKeep left right
  end.
Definition choose_weighted (s : vo) (wtCands : Q) (numCands : nat) (d : draw) : option nat :=
  weighted_loop (v_m s) (v_s s) (v_h s) wtCands (numCands - 1) 0 (- wtCands * d_u d)%Q.

(** varopt_items_sketch.go:527-553 chooseDeleteSlot. *)
Definition choose_delete_slot (s : vo) (wtCands : Q) (numCands : nat) (d : draw) : res nat :=
  if v_r s =? 0 then Err
  else match v_m s with
  | 0 => pick_in_r s d
  | 1 => let* x := of_opt (nth_error (v_s s) (v_h s)) in
         if qlt (wtCands * d_u d) (qn (numCands - 1) * wt x) then pick_in_r s d else Ok (v_h s)
  | _ => let* i := of_opt (choose_weighted s wtCands numCands d) in
         if i =? v_h s + v_m s then pick_in_r s d else Ok i
  end.

(** for j := leftmostCandSlot; j < stopIdx; j++ { s.weights[j] = -1.0 }. *)
Fixpoint clear_weights (cnt : nat) (l : list slot) (j : nat) : option (list slot) :=
  match cnt with
  | O => Some l
  | S c => do x <- nth_error l j; clear_weights c (upd j (mkSlot (it x) (-1) (mk x)) l) (j + 1)
  end.
(** varopt_items_sketch.go:493-524 downsampleCandidateSet. *)
Definition downsample (s : vo) (wtCands : Q) (numCands : nat) (d : draw) : res vo :=
  if (numCands <? 2) || negb (v_h s + numCands =? v_k s + 1) then Err
  else
    let* del := choose_delete_slot s wtCands numCands d in
    if (del <? v_h s) || (v_k s <? del) then Err
    else of_opt (
      do l <- clear_weights (v_m s) (v_s s) (v_h s);
      do x <- nth_error l (v_h s);
      do y <- nth_error l del;
      Some (mkVo (upd del (mkSlot (it x) (wt y) (mk y)) l) (v_gadget s) (v_k s) (v_n s) (v_h s) 0 (numCands - 1) wtCands (v_rf s) (v_nm s))).

(** varopt_items_sketch.go:464-490 growCandidateSet. *)
Fixpoint grow_loop (fuel : nat) (s : vo) (wtCands : Q) (numCands : nat) (d : draw) : res vo :=
  match fuel with
  | O => Panic
  | S f =>
    if 0 <? v_h s then
      let* x := of_opt (nth_error (v_s s) 0) in
      let nextTot := (wtCands + wt x)%Q in
      if qlt (wt x * qn numCands) nextTot then
        let* s := pop_min s in grow_loop f s nextTot (numCands + 1) d
      else downsample s wtCands numCands d
    else downsample s wtCands numCands d
  end.
Definition grow_candidates (s : vo) (wtCands : Q) (numCands : nat) (d : draw) : res vo :=
  if negb (v_h s + v_m s + v_r s =? v_k s + 1) || (numCands <? 1) || negb (numCands =? v_m s + v_r s) || (2 <=? v_m s) then Err
  else grow_loop (v_h s + 1) s wtCands numCands d.

(** varopt_items_sketch.go:323-352 transitionFromWarmup. *)
Definition transition (s : vo) (d : draw) : res vo :=
  let* l := heapify (v_s s) (v_h s) in
  let* s := pop_min (mkVo l (v_gadget s) (v_k s) (v_n s) (v_h s) (v_m s) (v_r s) (v_tot s) (v_rf s) (v_nm s)) in
  let* s := pop_min s in
  let m := v_m s - 1 in
  let r := v_r s + 1 in
  if negb (v_h s =? v_k s - 1) || negb (m =? 1) || negb (r =? 1) then Err
  else
    let* x := of_opt (nth_error (v_s s) (v_k s)) in
    let l := upd (v_k s) (mkSlot (it x) (-1) (mk x)) (v_s s) in
    let* y := of_opt (do j <- sub (v_k s) 1; nth_error l j) in
    grow_candidates (mkVo l (v_gadget s) (v_k s) (v_n s) (v_h s) m r (wt x) (v_rf s) (v_nm s)) (wt y + wt x)%Q 2 d.

(** varopt_items_sketch.go:298-320 updateWarmupPhase. *)
Definition update_warmup (s : vo) (x : T) (w : Q) (mark : bool) (d : draw) : res vo :=
  let s := mkVo (v_s s ++ [mkSlot x w (v_gadget s && mark)]) (v_gadget s) (v_k s) (v_n s) (v_h s + 1) (v_m s) (v_r s) (v_tot s) (v_rf s)
                (if mark then v_nm s + 1 else v_nm s)%Z in
  if v_k s <? v_h s then transition s d else Ok s.

(** varopt_items_sketch.go:358-373 updateLight. *)
Definition update_light (s : vo) (x : T) (w : Q) (mark : bool) (d : draw) : res vo :=
  if (v_r s =? 0) || negb (v_r s + v_h s =? v_k s) then Err
  else
    let* l := of_opt (wr (v_h s) (mkSlot x w (v_gadget s && mark)) (v_s s)) in
    grow_candidates (mkVo l (v_gadget s) (v_k s) (v_n s) (v_h s) (v_m s + 1) (v_r s) (v_tot s) (v_rf s) (v_nm s)) (v_tot s + w)%Q (v_r s + 1) d.

(** varopt_items_sketch.go:383-392 updateHeavyGeneral. *)
Definition update_heavy (s : vo) (x : T) (w : Q) (mark : bool) (d : draw) : res vo :=
  if (v_r s <? 2) || negb (v_m s =? 0) || negb (v_r s + v_h s =? v_k s) then Err
  else
    let* s := of_opt (push s x w mark) in
    grow_candidates s (v_tot s) (v_r s) d.

(** varopt_items_sketch.go:397-411 updateHeavyREqualsTo1. *)
Definition update_heavy_r1 (s : vo) (x : T) (w : Q) (mark : bool) (d : draw) : res vo :=
  if negb (v_r s =? 1) || negb (v_m s =? 0) || negb (v_r s + v_h s =? v_k s) then Err
  else
    let* s := of_opt (push s x w mark) in
    let* s := pop_min s in
    let* y := of_opt (do j <- sub (v_k s) 1; nth_error (v_s s) j) in
    grow_candidates s (wt y + v_tot s)%Q 2 d.

(** varopt_items_sketch.go:254-295 update. *)
Definition update_mark (s : vo) (x : T) (w : option Q) (mark : bool) (d : draw) : res vo :=
  match w with
  | None => Err
  | Some w =>
    if Qle_bool w 0 then Err
    else
      let s := mkVo (v_s s) (v_gadget s) (v_k s) (v_n s + 1) (v_h s) (v_m s) (v_r s) (v_tot s) (v_rf s) (v_nm s) in
      if v_r s =? 0 then update_warmup s x w mark d
      else
        let* minWeight := (if v_h s =? 0 then Ok 0%Q else let* y := of_opt (nth_error (v_s s) 0) in Ok (wt y)) in
        if negb (v_h s =? 0) && qlt minWeight (tau s) then Err
        else
          let hypotheticalTau := ((w + v_tot s) / (qn (v_r s + 1) - 1))%Q in
          let condition1 := (v_h s =? 0) || Qle_bool w minWeight in
          let condition2 := qlt w hypotheticalTau in
          if condition1 && condition2 then update_light s x w mark d
          else if v_r s =? 1 then update_heavy_r1 s x w mark d
          else update_heavy s x w mark d
  end.
(** varopt_items_sketch.go:250-252 Update. *)
Definition vo_update (s : vo) (x : T) (w : option Q) (d : draw) : res vo := update_mark s x w false d.

(** ** Queries *)

Definition qsum (l : list Q) : Q := fold_right Qplus 0%Q l.

(** varopt_items_sketch.go:719-782 EstimateSubsetSum: the estimate and the total weight. (The lower and upper bounds are
    floating point formulas, not modelled; the error they may return neither.) *)
Definition estimate_subset_sum (s : vo) (pred : T -> bool) : res (Q * Q) :=
  if (v_n s =? 0)%N then Ok (0%Q, 0%Q)
  else
    let* hs := of_opt (read_slots (v_h s) (v_s s) 0) in
    let sumH := qsum (map wt hs) in
    let trueH := qsum (map wt (filter (fun x => pred (it x)) hs)) in
    if v_r s =? 0 then Ok (trueH, trueH)
    else if (v_n s <? N.of_nat (v_h s + v_r s))%N then Err
    else
      let* rs := of_opt (read_items (v_k s - v_h s) (v_s s) (v_h s + 1)) in
      let trueR := length (filter pred rs) in
      Ok (trueH + v_tot s * (qn trueR / qn (v_r s)), sumH + v_tot s)%Q.

(** ** Reducing k *)

(** varopt_items_sketch.go:858-923 decreaseKBy1. (The error of the nested update is ignored; ours is never one, see the proofs,
    and is passed on.) *)
Definition decrease_k (s : vo) (d : draw) : res vo :=
  if v_k s <=? 1 then Err
  else
    let less_k := mkVo (v_s s) (v_gadget s) (v_k s - 1) (v_n s) (v_h s) (v_m s) (v_r s) (v_tot s) (v_rf s) (v_nm s) in
    if (v_h s =? 0) && (v_r s =? 0) then Ok less_k
    else if v_r s =? 0 then
      if v_k less_k <? v_h s then transition less_k d else Ok less_k
    else if 0 <? v_h s then
      if negb (v_h s + 1 + v_r s - 1 =? v_k s) then Err
      else
        let* l := of_opt (swap (v_s s) (v_h s + 1 + v_r s - 1) (v_h s)) in
        let p := v_h s - 1 in
        let* x := of_opt (nth_error l p) in
        if negb (v_gadget s) then Panic
        else
          update_mark (mkVo (upd p (mkSlot (it x) (-1) (mk x)) l) (v_gadget s) (v_k s - 1) (v_n s - 1) (v_h s - 1) (v_m s) (v_r s) (v_tot s) (v_rf s)
                            (if mk x then v_nm s - 1 else v_nm s)%Z) (it x) (Some (wt x)) (mk x) d
    else
      if v_r s <? 2 then Err
      else
        let* l := of_opt (swap (v_s s) (1 + d_i d mod v_r s) (1 + v_r s - 1)) in
        let* x := of_opt (nth_error l (1 + v_r s - 1)) in
        Ok (mkVo (upd (1 + v_r s - 1) (mkSlot (it x) (-1) (mk x)) l) (v_gadget s) (v_k s - 1) (v_n s) (v_h s) (v_m s) (v_r s - 1) (v_tot s) (v_rf s) (v_nm s)).

(** ** The union *)

(** varopt_items_union.go:30-36 VarOptItemsUnion. *)
Record vunion := mkVu { u_g : vo; u_k : nat; u_n : N; u_num : Q; u_den : nat }.

(** varopt_items_union.go:39-54 NewVarOptItemsUnion; reservoir_items_sketch.go defaultResizeFactor = ResizeX8. *)
Definition vu_new (maxK : N) : res vunion :=
  let* g := vo_make true maxK 3 in Ok (mkVu g (N.to_nat maxK) 0 0 0).

(** Updates of the gadget with a list of weighted items, the i-th with the outcome [ds i]. *)
Fixpoint update_list (g : vo) (l : list (T * Q)) (mark : bool) (ds : nat -> draw) (i : nat) : res vo :=
  match l with
  | [] => Ok g
  | (x, w) :: l => let* g := update_mark g x (Some w) mark (ds i) in update_list g l mark ds (S i)
  end.

(** varopt_items_sketch.go:811-825 hRegionSamplesWithMark; 831-840 rRegionSamples. *)
Definition h_samples (s : vo) : option (list slot) := read_slots (v_h s) (v_s s) 0.
Definition r_samples (s : vo) : option (list T) := read_items (num_samples s - v_h s) (v_s s) (v_h s + 1).
(** varopt_items_sketch.go:838-856 weightCorrRRegionSamples. *)
Fixpoint corrected (l : list T) (w tot cum : Q) : list (T * Q) :=
  match l with
  | [] => []
  | [x] => [(x, (tot - cum)%Q)]
  | x :: l => (x, w) :: corrected l w tot (cum + w)%Q
  end.
Definition corrected_r_samples (s : vo) : option (list (T * Q)) :=
  do rs <- r_samples s; Some (corrected rs (tau s) (v_tot s) 0%Q).

(** varopt_items_union.go:106-112 outerTau. *)
Definition outer_tau (u : vunion) : Q := if u_den u =? 0 then 0%Q else (u_num u / qn (u_den u))%Q.
(** varopt_items_union.go:82-101 and 156-172: the new outer tau, from the tau of an input in estimation mode. *)
Definition new_outer (u : vunion) (t num : Q) (den : nat) : Q * nat :=
  if u_den u =? 0 then (num, den)
  else if qlt (outer_tau u) t then (num, den)
  else if Qeq_bool t (outer_tau u) then ((u_num u + num)%Q, u_den u + den)
  else (u_num u, u_den u).

(** varopt_items_union.go:56-104 Update. *)
Definition vu_update (u : vunion) (s : vo) (ds : nat -> draw) : res vunion :=
  if (v_n s =? 0)%N then Ok u
  else
    let* hs := of_opt (h_samples s) in
    let* g := update_list (u_g u) (map (fun x => (it x, wt x)) hs) false ds 0 in
    let* rs := of_opt (corrected_r_samples s) in
    let* g := update_list g rs true ds (v_h s) in
    let '(num, den) := if 0 <? v_r s then new_outer u (tau s) (v_tot s) (v_r s) else (u_num u, u_den u) in
    Ok (mkVu g (u_k u) (u_n u + v_n s) num den).

(** varopt_items_union.go:116-175 UpdateReservoirItemsSketch; reservoir_items_sketch.go:176-181 implicitSampleWeight. [n], [k], [items]: the
    reservoir's. *)
Definition vu_update_reservoir (u : vunion) (n k : N) (items : list T) (ds : nat -> draw) : res vunion :=
  if (n =? 0)%N then Ok u
  else if (n <=? k)%N then
    let* g := update_list (u_g u) (map (fun x => (x, 1%Q)) items) false ds 0 in
    Ok (mkVu g (u_k u) (u_n u + n) (u_num u) (u_den u))
  else
    let qN := inject_Z (Z.of_N n) in
    let t := (qN / inject_Z (Z.of_N k))%Q in
    let kn := N.to_nat k in
    if length items <? kn then Panic
    else
      let* g := update_list (u_g u) (corrected (firstn kn items) t qN 0%Q) true ds 0 in
      let '(num, den) := new_outer u t qN kn in
      Ok (mkVu g (u_k u) (u_n u + n) num den).

(** varopt_items_union.go:178-183 Reset. *)
Definition vu_reset (u : vunion) : vunion := mkVu (vo_reset (u_g u)) (u_k u) 0 0 0.

(** varopt_items_union.go:236-247, 272-283: the check of the length of the gadget's data. (cap < len never holds.) *)
Definition gadget_len_ok (g : vo) : bool :=
  ((v_r g =? 0) && (length (v_s g) =? v_h g)) || ((0 <? v_r g) && (length (v_s g) =? v_k g + 1)).
(** varopt_items_union.go:235-266 simpleGadgetCoercer. The marks are dropped. *)
Definition unmark (x : slot) : slot := mkSlot (it x) (wt x) false.
Definition simple_coercer (u : vunion) : res vo :=
  let g := u_g u in
  if negb (gadget_len_ok g) then Err
  else Ok (mkVo (map unmark (v_s g)) false (v_k g) (u_n u) (v_h g) 0 (v_r g) (v_tot g) (v_rf g) 0).

(** varopt_items_union.go:342-347: keep reducing k. [fuel] is k: each round lowers it. *)
Fixpoint decrease_until (fuel : nat) (s : vo) (ds : nat -> draw) (i : nat) : res vo :=
  if (0 <? v_nm s)%Z then
    match fuel with
    | O => Panic
    | S f => let* s := decrease_k s (ds i) in decrease_until f s ds (S i)
    end
  else Ok s.
(** varopt_items_union.go:268-354 migrateMarkedItemsByDecreasingK. *)
Definition migrate (u : vunion) (ds : nat -> draw) : res vo :=
  let g := u_g u in
  if v_k g <? 2 then Err
  else if negb (gadget_len_ok g) then Err
  else if negb ((v_r g =? 0) || (v_k g =? v_h g + v_r g)) then Err
  else
    let k := if (v_r g =? 0) && (v_h g <? v_k g) then v_h g else v_k g in
    if k <? 2 then Err
    else
      let* s := decrease_k (mkVo (v_s g) (v_gadget g) k (u_n u) (v_h g) 0 (v_r g) (v_tot g) (v_rf g) (v_nm g)) (ds 0) in
      if v_r s =? 0 then Err
      else if Qeq_bool (tau s) 0 then Err
      else
        let* s := decrease_until (v_k s) s ds 1 in
        Ok (mkVo (map unmark (v_s s)) false (v_k s) (v_n s) (v_h s) (v_m s) (v_r s) (v_tot s) (v_rf s) 0).

(** varopt_items_union.go:360-427 markMovingGadgetCoercer: the loop over the items of R, then the one over those of H. *)
Definition r_slot (x : T) : slot := mkSlot x (-1) false.
Fixpoint move_r (l : list T) (a : list slot) (rp rr : nat) : option (list slot * nat * nat) :=
  match l with
  | [] => Some (a, rp, rr)
  | x :: l => do a <- wr rp (r_slot x) a; move_r l a (rp - 1) (rr + 1)
  end.
Fixpoint move_h (l : list slot) (a : list slot) (rp rr rh : nat) (trans : Q) : option (list slot * nat * nat * Q) :=
  match l with
  | [] => Some (a, rr, rh, trans)
  | x :: l =>
    if mk x then do a <- wr rp (r_slot (it x)) a; move_h l a (rp - 1) (rr + 1) rh (trans + wt x)%Q
    else do a <- wr rh (mkSlot (it x) (wt x) false) a; move_h l a rp rr (rh + 1) trans
  end.
Definition mark_moving (u : vunion) : res vo :=
  let g := u_g u in
  let resultK := v_h g + v_r g in
  let* rs := of_opt (r_samples g) in
  let* (a, rp, rr) := of_opt (move_r rs (repeat (mkSlot zero 0 false) (resultK + 1)) resultK 0) in
  let* hs := of_opt (h_samples g) in
  let* (a, rr, rh, trans) := of_opt (move_h hs a rp rr 0 0%Q) in
  if negb (rh + rr =? resultK) then Err
  else if Qle_bool (1 # 10000000000) (Qabs (trans - u_num u)) then Err
  else
    let* a := of_opt (wr rh (mkSlot zero (-1) false) a) in
    let* a := heapify a rh in
    Ok (mkVo a false resultK (u_n u) rh 0 rr (v_tot g + trans)%Q 3 0).

(** varopt_items_union.go:203-233 Result. The loop of lines 225-230 compares the weights with the gadget's tau; it is reached only
    when the gadget has r = 0, tau is then NaN and no comparison with it holds, so the loop does nothing. *)
Definition vu_result (u : vunion) (ds : nat -> draw) : res vo :=
  let g := u_g u in
  if (v_nm g =? 0)%Z then simple_coercer u
  else if negb ((v_r g =? 0) && (0 <? v_nm g)%Z && (v_nm g =? Z.of_nat (u_den u))%Z) then migrate u ds
  else mark_moving u.

(** ** Serialization *)

(** common.ItemSketchSerde[T]: SerializeManyToSlice, SizeOfMany, DeserializeManyFromSlice; the bits of a float64. *)
Variable ser : list T -> list N.
Variable size_many : list N -> nat -> nat -> option nat.
Variable deser : list N -> nat -> nat -> option (list T).
Variable bits : Q -> N.
Variable of_bits : N -> Q.

(** varopt_items_sketch_encoder.go:137-158: the marks, eight per byte. *)
Fixpoint mark_byte (l : list bool) : N := match l with [] => 0%N | b :: l => ((if b then 1 else 0) + 2 * mark_byte l)%N end.
Fixpoint mark_bytes (fuel : nat) (l : list bool) : list N :=
  match fuel, l with
  | _, [] => []
  | O, _ => []
  | S f, _ => mark_byte (firstn 8 l) :: mark_bytes f (skipn 8 l)
  end.

(** varopt_items_sketch_encoder.go:53-177 Encode; the writer never fails. *)
Definition vo_encode (s : vo) : res (list N) :=
  let isEmpty := ((v_n s =? 0)%N && (v_r s =? 0)) in
  let pre := if isEmpty then 1%N else if v_r s =? 0 then 3%N else 4%N in
  let head := [N.lor pre (N.shiftl (v_rf s) 6 mod 256); 2; 13; N.lor (if v_gadget s then 128 else 0) (if isEmpty then 4 else 0)]%N ++ le 4 (N.of_nat (v_k s) mod 2 ^ 32) in
  if isEmpty then Ok head
  else
    let* hs := of_opt (read_slots (v_h s) (v_s s) 0) in
    if negb (length (v_s s) =? v_h s + (if 0 <? v_r s then v_r s + 1 else 0)) then Err
    else
      let* rs := of_opt (if 0 <? v_r s then read_items (v_r s) (v_s s) (v_h s + 1) else Some []) in
      Ok (head ++ le 8 (v_n s) ++ le 4 (N.of_nat (v_h s) mod 2 ^ 32) ++ le 4 (N.of_nat (v_r s) mod 2 ^ 32)
          ++ (if 0 <? v_r s then le 8 (bits (v_tot s)) else [])
          ++ concat (map (fun x => le 8 (bits (wt x))) hs)
          ++ (if v_gadget s then mark_bytes (v_h s) (map mk hs) else [])
          ++ ser (map it hs) ++ (if 0 <? v_r s then ser rs else [])).

(** varopt_items_sketch_decoder.go:238-279 computeVarOptItemsSketchDataSize. *)
Definition data_size (pre k n h r rf : N) : res N :=
  (if (k =? 0) || (var_opt_max_k <? k) then Err
   else if n <=? k then
     if negb (pre =? 3) then Err else if negb (n =? h) then Err else if 0 <? r then Err
     else let a := adjusted k (2 ^ starting_sub_multiple (ceiling_lg k) rf (ceiling_lg h)) in Ok (if a =? k then a + 1 else a)
   else
     if negb (pre =? 4) then Err else if negb ((h + r) mod 2 ^ 32 =? k) then Err else Ok (k + 1))%N.

(** varopt_items_sketch_decoder.go:120-131: reading the weights. *)
Fixpoint read_weights (cnt : nat) (b : list N) (i : nat) : res (list Q) :=
  match cnt with
  | O => Ok []
  | S c =>
    let* v := of_opt (get_le 8 i b) in
    if Qle_bool (of_bits v) 0 then Err
    else let* r := read_weights c b (i + 8) in Ok (of_bits v :: r)
  end.
(** varopt_items_sketch_decoder.go:140-160: reading the marks, the i-th on. *)
Fixpoint read_marks (cnt i : nat) (val : N) (b : list N) (index : nat) : res (list bool * nat) :=
  match cnt with
  | O => Ok ([], index)
  | S c =>
    let* (val, index) := (if i mod 8 =? 0 then
        if length b <? index + 1 then Err else let* v := of_opt (nth_error b index) in Ok (v, index + 1)
      else Ok (val, index)) in
    let* (l, index) := read_marks c (i + 1) val b index in
    Ok (N.testbit val (N.of_nat (i mod 8)) :: l, index)
  end.

Definition short (b : list N) (e : nat) : bool := length b <? e.

(** varopt_items_sketch_decoder.go:34-221 DecodeVarOptItemsSketch; m is set to 1 when r > 0 (lines 204-207). *)
Definition vo_decode (b : list N) : res vo :=
  if short b 8 then Err else
  let* b0 := of_opt (nth_error b 0) in
  let pre := N.land b0 63 in
  let rf := N.land (N.shiftr b0 6) 3 in
  let* ver := of_opt (nth_error b 1) in
  let* fam := of_opt (nth_error b 2) in
  let* flags := of_opt (nth_error b 3) in
  let* k := of_opt (get_le 4 4 b) in
  let isEmpty := negb (N.land flags 4 =? 0)%N in
  if (if isEmpty then negb (pre =? 1)%N else negb (pre =? 3)%N && negb (pre =? 4)%N) then Err else
  if negb (fam =? 13)%N || negb (ver =? 2)%N then Err else
  let isGadget := negb (N.land flags 128 =? 0)%N in
  if isEmpty then vo_make isGadget k rf else
  if short b 16 then Err else
  let* n := of_opt (get_le 8 8 b) in
  if short b 20 then Err else
  let* h := of_opt (get_le 4 16 b) in
  if short b 24 then Err else
  let* r := of_opt (get_le 4 20 b) in
  let* alloc := data_size pre k n h r rf in
  let* (tot, index) := (if (pre =? 4)%N then
      if short b 32 then Err else
      let* v := of_opt (get_le 8 24 b) in
      if (r =? 0)%N || Qle_bool (of_bits v) 0 then Err else Ok (of_bits v, 32)
    else Ok (0%Q, 24)) in
  let len := N.to_nat (if (r =? 0)%N then h else alloc) in
  if (N.to_nat alloc <? len) then Panic else
  let hn := N.to_nat h in
  let rn := N.to_nat r in
  if short b (index + hn * 8) then Err else
  let* ws := read_weights hn b index in
  if len <? hn then Panic else
  let index := index + hn * 8 in
  let* (ms, index) := (if isGadget then read_marks hn 0 0%N b index else Ok (repeat false hn, index)) in
  match size_many b index hn with
  | None => Err
  | Some hBytes =>
    if short b (index + hBytes) then Err else
    match deser b index hn with
    | None => Err
    | Some hd =>
      if negb (length hd =? hn) then Panic else
      let index := index + hBytes in
      let hs := map (fun p => mkSlot (fst (fst p)) (snd (fst p)) (snd p)) (combine (combine hd ws) ms) in
      let* rs := (if (0 <? r)%N then
          match size_many b index rn with
          | None => Err
          | Some rBytes =>
            if short b (index + rBytes) then Err else
            match deser b index rn with
            | None => Err
            | Some rd => if negb (length rd =? rn) || negb (hn + 1 + rn =? len) then Panic else Ok (mkSlot zero (-1) false :: map r_slot rd)
            end
          end
        else Ok []) in
      Ok (mkVo (hs ++ rs) isGadget (N.to_nat k) n hn (if (0 <? r)%N then 1 else 0) rn tot rf (Z.of_nat (length (filter (fun m => m) ms))))
    end
  end.

(** varopt_items_union_encoder.go:48-114 Encode. (FamilyEnum.VarOptItemsUnion: id 14, MaxPreLongs 4.) *)
Definition vu_encode (u : vunion) : res (list N) :=
  if num_samples (u_g u) =? 0 then Ok ([1; 2; 14; 4]%N ++ le 4 (N.of_nat (u_k u) mod 2 ^ 32))
  else
    let* g := vo_encode (u_g u) in
    Ok ([4; 2; 14; 0]%N ++ le 4 (N.of_nat (u_k u) mod 2 ^ 32) ++ le 8 (u_n u) ++ le 8 (bits (u_num u)) ++ le 8 (N.of_nat (u_den u)) ++ g).
(** varopt_items_union_decoder.go:31-121 DecodeVarOptItemsUnion. *)
Definition vu_decode (b : list N) : res vunion :=
  if short b 1 then Err else
  let* pre := of_opt (nth_error b 0) in
  if negb (pre =? 1)%N && negb (pre =? 4)%N then Err else
  if short b 2 then Err else
  let* ver := of_opt (nth_error b 1) in
  if negb (ver =? 2)%N then Err else
  if short b 3 then Err else
  let* fam := of_opt (nth_error b 2) in
  if negb (fam =? 14)%N then Err else
  if short b 4 then Err else
  let* flags := of_opt (nth_error b 3) in
  if short b 8 then Err else
  let* maxK := of_opt (get_le 4 4 b) in
  if negb (N.land flags 4 =? 0)%N then vu_new maxK
  else
    if short b 16 then Err else
    let* n := of_opt (get_le 8 8 b) in
    if short b 24 then Err else
    let* num := of_opt (get_le 8 16 b) in
    if short b 32 then Err else
    let* den := of_opt (get_le 8 24 b) in
    let* g := vo_decode (skipn 32 b) in
    Ok (mkVu g (N.to_nat maxK) n (of_bits num) (N.to_nat den)).
End VarOpt.
