(** * Model of tdigest/double.go (t-digest of float64 values).

    Values and means are rational numbers: float64 arithmetic is taken to be exact, and NaN and infinite arguments, which Update and
    Rank refuse, are left out of the type [Q]. The smallest and largest value start at +Inf and -Inf, so they have type [ext]. An
    arithmetic result that Go would compute as NaN or an infinity is the answer [NotFinite], an index out of range is [Panics].
    math.Log is the section variable [ln]: every theorem holds whatever it is. Weights are unbounded (the code: uint64).

    Slice capacities and String are left out; the serialized form is in TdigestSerdeModel.v. *)
From Verif Require Import Base Arr.
From Coq Require Import QArith.
Local Close Scope Q_scope.
Local Open Scope nat_scope.

(** A float64 that may be infinite or NaN. *)
Inductive ext := Fin (q : Q) | PInf | NInf | NaN.

(** Go's a < b. *)
Definition qltb (a b : Q) : bool := negb (Qle_bool b a).
(** float64(uint64). *)
Definition qw (n : N) : Q := inject_Z (Z.of_N n).

(** v < e, v > e. *)
Definition lt_ext (v : Q) (e : ext) : bool := match e with Fin q => qltb v q | PInf => true | NInf | NaN => false end.
Definition gt_ext (v : Q) (e : ext) : bool := match e with Fin q => qltb q v | PInf | NaN => false | NInf => true end.
(** math.Min(e, v), min(e, v); math.Max(e, v), max(e, v). *)
Definition min_ext (e : ext) (v : Q) : ext := if lt_ext v e then Fin v else e.
Definition max_ext (e : ext) (v : Q) : ext := if gt_ext v e then Fin v else e.

(** double.go:71-74 doublePrecisionCentroid. *)
Record cent := mkC { c_mean : Q; c_wt : N }.

(** double.go:76-79 add: c.weight += other.weight; c.mean += (other.mean - c.mean) * other.weight / c.weight. The fraction is kept
    in lowest terms, which changes no value. *)
Definition cadd (c o : cent) : cent :=
  let w := (c_wt c + c_wt o)%N in
  mkC (Qred (c_mean c + (c_mean o - c_mean c) * qw (c_wt o) / qw w)) w.

(** double.go:101-110 Double; centroidsCapacity is a function of k. *)
Record td := mkTd {
  t_min : ext; t_max : ext; t_cs : list cent; t_buf : list Q; t_w : N; t_k : N; t_rev : bool }.

(** What a query answers. *)
Inductive terr := ErrEmpty | ErrInvalidRank | ErrSplitPoints | ErrGreater | ErrSmaller.
Inductive ans (A : Type) := Val (a : A) | Fail (e : terr) | NotFinite | Panics.
Arguments Val {A} _. Arguments Fail {A} _. Arguments NotFinite {A}. Arguments Panics {A}.

(** double.go:113-121, 142-148: capacity = 2k + fudge; 31-34 bufferMultiplier. *)
Definition capacity (k : N) : N := 2 * k + (if (k <? 30)%N then 30 else 10).
Definition buffer_limit (k : N) : nat := N.to_nat (capacity k * 4).

(** double.go:114-135 NewDouble. None: ErrInvalidK. *)
Definition td_new (k : N) : option td :=
  if (k <? 10)%N then None else Some (mkTd PInf NInf [] [] 0 k false).

(** double.go:233-235 IsEmpty; 254-256 TotalWeight. *)
Definition is_empty (s : td) : bool := match t_cs s, t_buf s with [], [] => true | _, _ => false end.
Definition total_weight (s : td) : N := (t_w s + N.of_nat (length (t_buf s)))%N.

(** double.go:238-251 MinValue, MaxValue. *)
Definition min_value (s : td) : ans ext := if is_empty s then Fail ErrEmpty else Val (t_min s).
Definition max_value (s : td) : ans ext := if is_empty s then Fail ErrEmpty else Val (t_max s).

(** double.go:62-69 doublePrecisionCentroidSortFunc with slices.SortStableFunc: the stable sort by mean. *)
Fixpoint ins (x : cent) (l : list cent) : list cent :=
  match l with
  | [] => [x]
  | y :: l' => if qltb (c_mean y) (c_mean x) then y :: ins x l' else x :: y :: l'
  end.
Fixpoint ssort (l : list cent) : list cent := match l with [] => [] | x :: l' => ins x (ssort l') end.

Section Log.
Variable ln : Q -> Q.

(** double.go:84-98 scaleFunction: max, normalizer, z. *)
Definition sf_z (compression n : Q) : Q := 4 * ln (n / compression) + 24.
Definition sf_normalizer (compression n : Q) : Q := compression / sf_z compression n.
Definition sf_max (q normalizer : Q) : Q := q * (1 - q) / normalizer.
Definition qmin (a b : Q) : Q := if qltb b a then b else a.

(** double.go:521-525: the test that decides whether the next centroid, of weight bw, joins the current one, of weight cw. *)
Definition fits (k W : N) (so_far : Q) (cw bw : N) : bool :=
  let proposed := (qw cw + qw bw)%Q in
  let q0 := (so_far / qw W)%Q in
  let q2 := ((so_far + proposed) / qw W)%Q in
  let nrm := sf_normalizer (2 * qw k) (qw W) in
  Qle_bool proposed (qw W * qmin (sf_max q0 nrm) (sf_max q2 nrm)).

(** double.go:514-537, the loop of merge. [first]: i = 1; the rest is empty when i = len(buffer)-1. *)
Fixpoint squash (k W : N) (first : bool) (so_far : Q) (cur : cent) (l : list cent) : list cent :=
  match l with
  | [] => [cur]
  | b :: l' =>
      let add_this := if first || (match l' with [] => true | _ => false end) then false else fits k W so_far (c_wt cur) (c_wt b) in
      if add_this then squash k W false so_far (cadd cur b) l'
      else cur :: squash k W false (so_far + qw (c_wt cur)) b l'
  end.

(** double.go:504-550 merge. None: buffer[0] of an empty slice. *)
Definition merge (s : td) (tmp : list cent) (weight : N) : option td :=
  let sorted := ssort (tmp ++ t_cs s) in
  let buffer := if t_rev s then rev sorted else sorted in
  let W := (t_w s + weight)%N in
  match buffer with
  | [] => None
  | c :: l =>
      let out := squash (t_k s) W true 0 c l in
      let cs := if t_rev s then rev out else out in
      match cs with
      | [] => None
      | c0 :: _ =>
          Some (mkTd (min_ext (t_min s) (c_mean c0)) (max_ext (t_max s) (c_mean (last cs c0))) cs [] W (t_k s) (negb (t_rev s)))
      end
  end.

Definition singles (l : list Q) : list cent := map (fun v => mkC v 1) l.

(** double.go:221-230 compress. *)
Definition compress (s : td) : option td :=
  match t_buf s with
  | [] => Some s
  | _ => merge s (singles (t_buf s)) (N.of_nat (length (t_buf s)))
  end.

(** double.go:183-199 Update of a finite value. *)
Definition update (s : td) (v : Q) : option td :=
  match (if length (t_buf s) =? buffer_limit (t_k s) then compress s else Some s) with
  | None => None
  | Some s' => Some (mkTd (min_ext (t_min s') v) (max_ext (t_max s') v) (t_cs s') (t_buf s' ++ [v]) (t_w s') (t_k s') (t_rev s'))
  end.

(** double.go:202-219 Merge. *)
Definition merge_in (s other : td) : ans td :=
  if is_empty other then Fail ErrEmpty
  else match merge s (singles (t_buf s) ++ singles (t_buf other) ++ t_cs other)
                   (N.of_nat (length (t_buf s)) + total_weight other) with
       | None => Panics
       | Some s' => Val s'
       end.

(** sort.Search(len(l), p), by its contract: the first index whose element satisfies p, or len(l). *)
Fixpoint first_idx {A} (p : A -> bool) (l : list A) : nat :=
  match l with [] => 0 | x :: l' => if p x then 0 else S (first_idx p l') end.

Definition sumw (l : list cent) : Q := fold_right (fun c a => qw (c_wt c) + a)%Q 0%Q l.

(** double.go:312-345 Rank, between the means of the first and the last centroid. *)
Definition rank_mid (cs : list cent) (W : N) (value : Q) : ans Q :=
  let lower := first_idx (fun c => Qle_bool value (c_mean c)) cs in
  if lower =? length cs then Fail ErrGreater
  else
    let upper := first_idx (fun c => qltb value (c_mean c)) cs in
    if upper =? 0 then Fail ErrSmaller
    else
      match nth_error cs lower with
      | None => Panics
      | Some cl0 =>
          let lower := if qltb value (c_mean cl0) && (0 <? lower) then lower - 1 else lower in
          match (if upper =? length cs then Some (upper - 1)
                 else match nth_error cs (upper - 1) with
                      | None => None
                      | Some cu0 => if negb (qltb (c_mean cu0) value) then Some (upper - 1) else Some upper
                      end) with
          | None => Panics
          | Some upper =>
              match nth_error cs lower, nth_error cs upper with
              | Some cl, Some cu =>
                  let below := (sumw (firstn lower cs) + qw (c_wt cl) / 2)%Q in
                  let delta := (sumw (firstn (upper - lower) (skipn lower cs)) - qw (c_wt cl) / 2 + qw (c_wt cu) / 2)%Q in
                  if qltb 0 (c_mean cu - c_mean cl)
                  then Val ((below + delta * (value - c_mean cl) / (c_mean cu - c_mean cl)) / qw W)%Q
                  else Val ((below + delta / 2) / qw W)%Q
              | _, _ => Panics
              end
          end
      end.

(** double.go:285-310 Rank, the tails. *)
Definition rank_tails (mn mx : Q) (cs : list cent) (W : N) (value : Q) : ans Q :=
  match cs with
  | [] => Panics
  | c0 :: _ =>
      let cl := last cs c0 in
      if qltb value (c_mean c0) then
        if qltb 0 (c_mean c0 - mn) then
          if Qeq_bool value mn then Val (1 / 2 / qw W)%Q
          else Val ((1 + (value - mn) / (c_mean c0 - mn) * (qw (c_wt c0) / 2 - 1)) / qw W)%Q
        else Val 0%Q
      else if qltb (c_mean cl) value then
        if qltb 0 (mx - c_mean cl) then
          if Qeq_bool value mx then Val (1 - 1 / 2 / qw W)%Q
          else Val (1 - (1 + (mx - value) / (mx - c_mean cl) * (qw (c_wt cl) / 2 - 1)) / qw W)%Q
        else Val 1%Q
      else rank_mid cs W value
  end.

(** double.go:264-346 Rank: the sketch afterwards and the answer. Min and max are finite once a value was seen. *)
Definition rank (s : td) (value : Q) : td * ans Q :=
  if is_empty s then (s, Fail ErrEmpty)
  else if lt_ext value (t_min s) then (s, Val 0%Q)
  else if gt_ext value (t_max s) then (s, Val 1%Q)
  else if length (t_cs s) + length (t_buf s) =? 1 then (s, Val (1 # 2)%Q)
  else match compress s with
       | None => (s, Panics)
       | Some s' => match t_min s', t_max s' with
                    | Fin mn, Fin mx => (s', rank_tails mn mx (t_cs s') (t_w s') value)
                    | _, _ => (s', NotFinite)
                    end
       end.

(** double.go:563-565 weightedAverage. *)
Definition weighted_average (x1 w1 x2 w2 : Q) : ans Q :=
  if Qeq_bool (w1 + w2) 0 then NotFinite else Val ((x1 * w1 + x2 * w2) / (w1 + w2))%Q.

(** double.go:382-407: the interpolation loop of Quantile; [cs] starts at centroid i. None: the loop ran out. *)
Fixpoint quantile_loop (so_far weight : Q) (cs : list cent) : option (ans Q) :=
  match cs with
  | ci :: ((cj :: _) as cs') =>
      let dw := ((qw (c_wt ci) + qw (c_wt cj)) / 2)%Q in
      if qltb weight (so_far + dw) then
        Some (if (c_wt ci =? 1)%N && qltb (weight - so_far) (1 # 2) then Val (c_mean ci)
              else if (c_wt cj =? 1)%N && Qle_bool (so_far + dw - weight) (1 # 2) then Val (c_mean cj)
              else
                let left := if (c_wt ci =? 1)%N then (1 # 2)%Q else 0%Q in
                let right := if (c_wt cj =? 1)%N then (1 # 2)%Q else 0%Q in
                weighted_average (c_mean ci) (weight - so_far - left) (c_mean cj) (so_far + dw - weight - right))
      else quantile_loop (so_far + dw) weight cs'
  | _ => None
  end.

(** double.go:357-411 Quantile of a compressed sketch. *)
Definition quantile_core (mn mx : Q) (cs : list cent) (W : N) (r : Q) : ans Q :=
  match cs with
  | [] => Panics
  | [c] => Val (c_mean c)
  | c0 :: _ =>
      let cl := last cs c0 in
      let weight := (r * qw W)%Q in
      if qltb weight 1 then Val mn
      else if qltb (qw W - 1) weight then Val mx
      else
        let fw := qw (c_wt c0) in
        if qltb 1 fw && qltb weight (fw / 2) then
          if Qeq_bool (fw / 2 - 1) 0 then NotFinite
          else Val (mn + (weight - 1) / (fw / 2 - 1) * (c_mean c0 - mn))%Q
        else
          let lw := qw (c_wt cl) in
          if qltb 1 lw && Qle_bool (qw W - weight) (lw / 2) then
            if Qeq_bool (lw / 2 - 1) 0 then NotFinite
            else Val (mx + (qw W - weight - 1) / (lw / 2 - 1) * (mx - c_mean cl))%Q
          else
            match quantile_loop (fw / 2) weight cs with
            | Some a => a
            | None =>
                let w1 := (weight - qw W - lw / 2)%Q in
                let w2 := (lw / 2 - w1)%Q in
                weighted_average (c_mean cl) w1 mx w2
            end
  end.

(** double.go:349-412 Quantile: the sketch afterwards and the answer. *)
Definition quantile (s : td) (r : Q) : td * ans Q :=
  if is_empty s then (s, Fail ErrEmpty)
  else if qltb r 0 || qltb 1 r then (s, Fail ErrInvalidRank)
  else match compress s with
       | None => (s, Panics)
       | Some s' => match t_min s', t_max s' with
                    | Fin mn, Fin mx => (s', quantile_core mn mx (t_cs s') (t_w s') r)
                    | _, _ => (s', NotFinite)
                    end
       end.

(** internal/quantiles/utils.go:37-47 ValidateSplitPoints (no NaN here). *)
Fixpoint valid_splits (l : list Q) : bool :=
  match l with
  | x :: ((y :: _) as l') => qltb x y && valid_splits l'
  | _ => true
  end.

(** double.go:433-441: the loop of CDF. *)
Fixpoint ranks (s : td) (l : list Q) : td * ans (list Q) :=
  match l with
  | [] => (s, Val [])
  | x :: l' =>
      match rank s x with
      | (s1, Val r) => match ranks s1 l' with
                       | (s2, Val rs) => (s2, Val (r :: rs))
                       | (s2, Fail e) => (s2, Fail e) | (s2, NotFinite) => (s2, NotFinite) | (s2, Panics) => (s2, Panics)
                       end
      | (s1, Fail e) => (s1, Fail e) | (s1, NotFinite) => (s1, NotFinite) | (s1, Panics) => (s1, Panics)
      end
  end.

(** double.go:429-445 CDF. *)
Definition cdf (s : td) (splits : list Q) : td * ans (list Q) :=
  if negb (valid_splits splits) then (s, Fail ErrSplitPoints)
  else match ranks s splits with
       | (s', Val rs) => (s', Val (rs ++ [1%Q]))
       | r => r
       end.

(** double.go:416-425 PMF: for i from len(splitPoints) down to 1, buckets[i] -= buckets[i-1]. *)
Fixpoint differences (prev : Q) (l : list Q) : list Q :=
  match l with [] => [] | x :: l' => (x - prev)%Q :: differences x l' end.
Definition pmf (s : td) (splits : list Q) : td * ans (list Q) :=
  match cdf s splits with
  | (s', Val (x :: l)) => (s', Val (x :: differences x l))
  | r => r
  end.
End Log.
