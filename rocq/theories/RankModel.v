(** * Normalised ranks: the float64 layer of the quantile queries (internal/quantiles/utils.go, kll/items_sketch_sorted_view.go,
    kll/items_sketch_partition_boundaries.go). The searches in the sorted view are those of KllModel. *)
From Coq Require Import ZArith Bool List.
From Flocq Require Import Core BinarySingleNaN.
From Verif Require Import Base Bytes Arr SearchModel KllModel FloatModel.
Import ListNotations.
Local Open Scope nat_scope.

(** The outcome of a query: an answer, an error, a value Go leaves to the implementation (the conversion to an integer of a
    float64 that does not fit), or a panic. *)
Inductive answer (A : Type) := Ans (a : A) | Refused | Unspecified | Crashed.
Arguments Ans {A}. Arguments Refused {A}. Arguments Unspecified {A}. Arguments Crashed {A}.
Definition bind_a {A B} (a : answer A) (f : A -> answer B) : answer B :=
  match a with Ans a => f a | Refused => Refused | Unspecified => Unspecified | Crashed => Crashed end.
Definition or_crash {A} (o : option A) : answer A := match o with Some a => Ans a | None => Crashed end.
(** A loop that fills a slice and returns at the first error *)
Fixpoint all_answers {A} (l : list (answer A)) : answer (list A) :=
  match l with [] => Ans [] | a :: t => bind_a a (fun a => bind_a (all_answers t) (fun t => Ans (a :: t))) end.

Definition f_one : f64 := f_of_Z 1.
(** math.Round: to the nearest integer, halves away from zero *)
Definition fround : f64 -> f64 := Bnearbyint mode_NA.
(** int64(x): the fraction is dropped; unspecified when x is not a number or out of range *)
Definition to_int64 (x : f64) : answer Z :=
  if is_finite x then
    let z := Btrunc x in if ((- 2 ^ 63 <=? z) && (z <? 2 ^ 63))%Z then Ans z else Unspecified
  else Unspecified.

(** internal/quantiles/utils.go:25 tailRoundingFactor *)
Definition tail_factor : N := 10000000%N.
(** internal/quantiles/utils.go:49-54 ValidateNormalizedRankBounds, and the same test in kll/items_sketch.go:292 *)
Definition valid_rank (rank : f64) : bool := negb (flt rank f_zero || flt f_one rank).
(** internal/quantiles/utils.go:57-66 ComputeNaturalRank *)
Definition natural_rank (rank : f64) (total : N) (inclusive : bool) : answer Z :=
  let nr := fmul rank (f_of_Z (Z.of_N total)) in
  let nr := if (total <=? tail_factor)%N
            then fdiv (fround (fmul nr (f_of_Z (Z.of_N tail_factor)))) (f_of_Z (Z.of_N tail_factor)) else nr in
  to_int64 (if inclusive then fceil nr else ffloor nr).
(** kll/items_sketch_sorted_view.go:94 and common/quantiles/numeric_sorted_view.go:109: float64(cumWeight) / float64(n). The
    queries return the literal 0 when no item counts; it is the value of this quotient for 0. *)
Definition norm_rank (c total : N) : f64 := fdiv (f_of_Z (Z.of_N c)) (f_of_Z (Z.of_N total)).

(** The loops of GetPMF (kll/items_sketch_sorted_view.go:127-130, common/quantiles/numeric_sorted_view.go:242-244): from the last
    bucket down, every bucket loses its predecessor, which is still unchanged at that moment. *)
Fixpoint differences (prev : f64) (l : list f64) : list f64 :=
  match l with [] => [] | x :: t => fsub x prev :: differences x t end.
Definition masses (l : list f64) : list f64 := match l with [] => [] | x :: t => x :: differences x t end.

(** kll/utils.go:125-142 evenlySpacedDoubles(0, 1, num), value1 = 0 and value2 = 1 filled in *)
Definition evenly_spaced (num : nat) : answer (list f64) :=
  if num <? 2 then Refused
  else if num =? 2 then Ans [f_zero; f_one]
  else
    let delta := fdiv (fsub f_one f_zero) (f_of_Z (Z.of_nat (num - 1))) in
    Ans (f_zero :: map (fun i => fadd (fmul (f_of_Z (Z.of_nat i)) delta) f_zero) (seq 1 (num - 2)) ++ [f_one]).

Section Kll.
Context {C : Type}.
Variables less ceq : C -> C -> bool.
Variable zero : C.
Variable sort : list C -> list C.

(** kll/items_sketch_sorted_view.go:78-95 GetRank on the view *)
Definition vrank (v : view) (x : C) (inclusive : bool) : answer f64 :=
  if (total_n v =? 0)%N then Refused
  else bind_a (or_crash (get_rank less ceq v x inclusive)) (fun c => Ans (norm_rank c (total_n v))).

(** kll/items_sketch_sorted_view.go:157-174 getQuantileIndex. Natural ranks of valid normalised ranks are not negative. *)
Definition quantile_index (v : view (C := C)) (rank : f64) (inclusive : bool) : answer Z :=
  bind_a (natural_rank rank (total_n v) inclusive) (fun nr =>
  bind_a (or_crash (find_with_inequality N.ltb N.eqb (cum_weights v) 0 (Z.of_nat (length (quantiles v)) - 1) (Z.to_N nr) (if inclusive then GE else GT))) (fun index =>
  Ans (if (index =? -1)%Z then Z.of_nat (length (quantiles v)) - 1 else index)%Z)).

(** kll/items_sketch_sorted_view.go:97-113 GetQuantile on the view *)
Definition vquantile (v : view) (rank : f64) (inclusive : bool) : answer C :=
  if (total_n v =? 0)%N then Refused
  else if negb (valid_rank rank) then Refused
  else bind_a (quantile_index v rank inclusive) (fun index => or_crash (at_ (quantiles v) index)).

(** kll/utils.go:60-72 checkItems, for items that are never nil *)
Fixpoint check_items (l : list C) : bool :=
  match l with
  | x :: (y :: _) as t => less x y && check_items t
  | _ => true
  end.

(** kll/items_sketch_sorted_view.go:134-151 GetCDF and 115-132 GetPMF on the view *)
Definition vcdf (v : view) (points : list C) (inclusive : bool) : answer (list f64) :=
  if (total_n v =? 0)%N then Refused
  else if negb (check_items points) then Refused
  else bind_a (all_answers (map (fun x => vrank v x inclusive) points)) (fun l => Ans (l ++ [f_one])).
Definition vpmf (v : view) (points : list C) (inclusive : bool) : answer (list f64) :=
  if (total_n v =? 0)%N then Refused
  else if negb (check_items points) then Refused
  else bind_a (vcdf v points inclusive) (fun l => Ans (masses l)).

(** kll/items_sketch_partition_boundaries.go:40-48: the number of items in each part *)
Fixpoint delta_items (inclusive : bool) (i len : nat) (prev : Z) (nats : list Z) : list Z :=
  match nats with
  | [] => []
  | r :: t => (r - prev + (if ((i =? 1) && inclusive || (i =? len - 1) && negb inclusive)%nat then 1 else 0))%Z :: delta_items inclusive (i + 1) len r t
  end.
(** kll/items_sketch_partition_boundaries.go:22-33 ItemsSketchPartitionBoundaries (the items, natural ranks, normalised ranks and
    numbers of items; the copies of the sketch's own figures are left out). A negative number of partitions behaves as 0. *)
Record partition := mkPart { boundaries : list C; nat_ranks : list Z; norm_ranks : list f64; num_delta : list Z }.
(** kll/items_sketch_partition_boundaries.go:35-59 newItemsSketchPartitionBoundaries *)
Definition new_partition (inclusive : bool) (bs : list C) (nats : list Z) (norms : list f64) : answer partition :=
  if length bs <? 2 then Refused
  else match nats with [] => Crashed | r0 :: t => Ans (mkPart bs nats norms (0%Z :: delta_items inclusive 1 (length bs) r0 t)) end.
(** kll/items_sketch_sorted_view.go:180-205 GetPartitionBoundaries: the answer and the view it leaves behind *)
Definition vpartition (v : view) (s : kll) (num : nat) (inclusive : bool) : answer partition * view :=
  if (total_n v =? 0)%N then (Refused, v)
  else match partition_boundaries_writes v s with
       | None => (Crashed, v)
       | Some v =>
         (bind_a (evenly_spaced (num + 1)) (fun norms =>
          bind_a (all_answers (map (fun r => bind_a (quantile_index v r inclusive) (fun ix =>
                    or_crash (do q <- at_ (quantiles v) ix; do c <- at_ (cum_weights v) ix; Some (q, Z.of_N c)))) norms)) (fun l =>
          new_partition inclusive (map fst l) (map snd l) norms)), v)
       end.

(** ** The queries of the sketch. [cache] is the field sortedView; every query sets it up first (kll/items_sketch.go:695-704). *)
Definition setup (s : kll) (cache : option view) : option view :=
  match cache with Some v => Some v | None => sorted_view less ceq zero sort s end.
Definition on_view {A} (s : kll) (cache : option view) (f : view -> answer A) : answer A :=
  if is_empty s then Refused else match setup s cache with None => Crashed | Some v => f v end.
(** kll/items_sketch.go:254-263 GetRank, 267-283 GetRanks, 288-300 GetQuantile, 304-320 GetQuantiles, 354-363 GetPMF, 390-399 GetCDF *)
Definition get_rank64 (s : kll) (cache : option view) (x : C) (inclusive : bool) : answer f64 := on_view s cache (fun v => vrank v x inclusive).
Definition get_ranks (s : kll) (cache : option view) (xs : list C) (inclusive : bool) : answer (list f64) :=
  on_view s cache (fun v => all_answers (map (fun x => vrank v x inclusive) xs)).
Definition get_quantile64 (s : kll) (cache : option view) (rank : f64) (inclusive : bool) : answer C :=
  if is_empty s then Refused else if negb (valid_rank rank) then Refused else on_view s cache (fun v => vquantile v rank inclusive).
Definition get_quantiles (s : kll) (cache : option view) (ranks : list f64) (inclusive : bool) : answer (list C) :=
  on_view s cache (fun v => all_answers (map (fun r => vquantile v r inclusive) ranks)).
Definition get_pmf (s : kll) (cache : option view) (points : list C) (inclusive : bool) : answer (list f64) :=
  on_view s cache (fun v => vpmf v points inclusive).
Definition get_cdf (s : kll) (cache : option view) (points : list C) (inclusive : bool) : answer (list f64) :=
  on_view s cache (fun v => vcdf v points inclusive).
(** kll/items_sketch.go:429-439 GetPartitionBoundaries: the answer and the cached view afterwards *)
Definition get_partition_boundaries (s : kll) (cache : option view) (num : nat) (inclusive : bool) : answer partition * option view :=
  if is_empty s then (Refused, cache)
  else match setup s cache with
       | None => (Crashed, cache)
       | Some v => let (a, v) := vpartition v s num inclusive in (a, Some v)
       end.
End Kll.
