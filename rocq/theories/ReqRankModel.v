(** * REQ's queries in float64: normalised ranks, quantiles, CDF, PMF and the error bounds (req/sketch.go, req/utils.go,
    common/quantiles/numeric_sorted_view.go). The searches in the sorted view are those of ReqModel. *)
From Coq Require Import ZArith Bool List.
From Flocq Require Import Core BinarySingleNaN.
From Verif Require Import Base Bytes Arr BitPackModel SearchModel KllModel FloatModel RankModel ReqModel.
Import ListNotations.
Local Open Scope nat_scope.

(** ** Error bounds. Integers are [Z]; they do not overflow for any k and n of a sketch. *)
(** req/sketch.go:28-34 initNumberOfSections, fixRSEFactor (0.084 rounded to a float64) and 36-38 relRSEFactor (the constant
    0.0512/3 is exact until it is rounded as the argument of math.Sqrt) *)
Definition init_sections : Z := 3%Z.
Definition fix_rse : f64 := f_lit 6052837899185947 (-56).
Definition rel_rse : f64 := fsqrt (f_lit 4919131752989214 (-58)).

(** req/sketch.go:750-762 isExactRank *)
Definition exact_rank64 (k levels : Z) (rank : f64) (hra : bool) (n : Z) : bool :=
  let base := (k * init_sections)%Z in
  if ((levels =? 1) || (n <=? base))%Z then true
  else
    let th := fdiv (f_of_Z base) (f_of_Z n) in
    if hra then fle (fsub f_one th) rank else fle rank th.
(** req/sketch.go:740-745 and 776-781: relative and fixed *)
Definition relative_part (k : Z) (rank : f64) (hra : bool) : f64 :=
  fmul (fdiv rel_rse (f_of_Z k)) (if hra then fsub f_one rank else rank).
Definition fixed_part (k : Z) : f64 := fdiv fix_rse (f_of_Z k).
(** req/sketch.go:728-748 computeRankLowerBound *)
Definition rank_lower (k levels : Z) (rank : f64) (sd : Z) (hra : bool) (n : Z) : f64 :=
  if exact_rank64 k levels rank hra n then rank
  else fmax (fsub rank (fmul (f_of_Z sd) (relative_part k rank hra))) (fsub rank (fmul (f_of_Z sd) (fixed_part k))).
(** req/sketch.go:764-784 computeRankUpperBound *)
Definition rank_upper (k levels : Z) (rank : f64) (sd : Z) (hra : bool) (n : Z) : f64 :=
  if exact_rank64 k levels rank hra n then rank
  else fmin (fadd rank (fmul (f_of_Z sd) (relative_part k rank hra))) (fadd rank (fmul (f_of_Z sd) (fixed_part k))).
(** req/utils.go:27-29 ComputeRSE *)
Definition compute_rse (k : Z) (rank : f64) (hra : bool) (n : Z) : f64 := fsub (rank_upper k 2 rank 1 hra n) rank.

Section Req.
Context {C : Type}.
Variables less ceq : C -> C -> bool.
Variable zero : C.
Variable sort : list C -> list C.
Context {F : Type}.
(** Whether an item is a finite number. Items are never NaN: Rank refuses NaN (req/sketch.go:454-456), CDF and PMF too
    (internal/quantiles/utils.go:39-41). *)
Variable finite : C -> bool.

(** common/quantiles/numeric_sorted_view.go:90-110 Rank on the view *)
Definition nrank (v : nview) (x : C) (inclusive : bool) : answer f64 :=
  if (v_n v =? 0)%N then Refused
  else bind_a (or_crash (view_rank less ceq v x inclusive)) (fun c => Ans (norm_rank c (v_n v))).
(** common/quantiles/numeric_sorted_view.go:125-150 Quantile on the view. Natural ranks of valid normalised ranks are not negative. *)
Definition nquantile (v : nview (C := C)) (rank : f64) (inclusive : bool) : answer C :=
  if (v_n v =? 0)%N then Refused
  else if negb (valid_rank rank) then Refused
  else bind_a (natural_rank rank (v_n v) inclusive) (fun nr => or_crash (view_quantile v (Z.to_N nr) inclusive)).
(** common/quantiles/numeric_sorted_view.go:194-211 CDF, with internal/quantiles/utils.go:37-47 ValidateSplitPoints, and 236-246 PMF *)
Definition ncdf (v : nview) (points : list C) (inclusive : bool) : answer (list f64) :=
  if negb (check_items less points) then Refused
  else bind_a (all_answers (map (fun x => nrank v x inclusive) points)) (fun l => Ans (l ++ [f_one])).
Definition npmf (v : nview) (points : list C) (inclusive : bool) : answer (list f64) :=
  bind_a (ncdf v points inclusive) (fun l => Ans (masses l)).

(** ** The queries of the sketch. Every change of the content drops the cached view (req/sketch.go:588, 600, 658, 723), so a query
    sees the view of the present content. *)
Definition on_req {A} (s : sketch (C := C) (F := F)) (f : nview -> answer A) : answer A :=
  if is_empty s then Refused
  else match sorted_view less ceq zero sort s with Ok v => f v | Err => Refused | Panic => Crashed end.
(** req/sketch.go:450-473 Rank, 477-493 Ranks *)
Definition req_rank64 (s : sketch (C := C) (F := F)) (x : C) (inclusive : bool) : answer f64 :=
  if is_empty s then Refused else if negb (finite x) then Refused else on_req s (fun v => nrank v x inclusive).
Definition req_ranks (s : sketch (C := C) (F := F)) (xs : list C) (inclusive : bool) : answer (list f64) :=
  if is_empty s then Refused else all_answers (map (fun x => req_rank64 s x inclusive) xs).
(** req/sketch.go:302-319 Quantile, 324-351 Quantiles *)
Definition req_quantile64 (s : sketch (C := C) (F := F)) (rank : f64) (inclusive : bool) : answer C := on_req s (fun v => nquantile v rank inclusive).
Definition req_quantiles (s : sketch (C := C) (F := F)) (ranks : list f64) (inclusive : bool) : answer (list C) :=
  on_req s (fun v => all_answers (map (fun r => nquantile v r inclusive) ranks)).
(** req/sketch.go:120-134 CDF, 276-293 PMF *)
Definition req_cdf (s : sketch (C := C) (F := F)) (points : list C) (inclusive : bool) : answer (list f64) := on_req s (fun v => ncdf v points inclusive).
Definition req_pmf (s : sketch (C := C) (F := F)) (points : list C) (inclusive : bool) : answer (list f64) := on_req s (fun v => npmf v points inclusive).
(** req/sketch.go:390-403 RankLowerBound, 433-446 RankUpperBound. They do not ask whether the sketch is empty, whether the rank lies
    in [0, 1], or whether the number of standard deviations is 1, 2 or 3. *)
Definition req_rank_lower (s : sketch (C := C) (F := F)) (rank : f64) (sd : Z) : f64 :=
  rank_lower (Z.of_nat (r_k s)) (Z.of_nat (length (r_comps s))) rank sd (r_hra s) (Z.of_N (r_n s)).
Definition req_rank_upper (s : sketch (C := C) (F := F)) (rank : f64) (sd : Z) : f64 :=
  rank_upper (Z.of_nat (r_k s)) (Z.of_nat (length (r_comps s))) rank sd (r_hra s) (Z.of_N (r_n s)).
(** req/sketch.go:373-381 QuantileLowerBound, 416-424 QuantileUpperBound *)
Definition req_quantile_lower (s : sketch (C := C) (F := F)) (rank : f64) (sd : Z) : answer C := req_quantile64 s (req_rank_lower s rank sd) true.
Definition req_quantile_upper (s : sketch (C := C) (F := F)) (rank : f64) (sd : Z) : answer C := req_quantile64 s (req_rank_upper s rank sd) true.
End Req.
