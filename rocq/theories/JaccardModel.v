(** * theta/jaccard_similarity.go, tuple/jaccard_similarity.go, bounds_on_ratios_in_sketched_sets.go,
    bounds_on_ratios_in_sampled_sets.go (both packages), internal/binomialproportionsbounds (its case analysis).

    Values of type float64 are rationals: the quotients of counts are exact. The curves of the binomial bounds
    (powers, the Abramowitz-Stegun formula) are parameters. *)
From Coq Require Import QArith.
From Verif Require Import Base QuickSelectModel ProbeModel HashtableModel ThetaModel TupleModel TupleHeapModel.
Local Open Scope nat_scope.

(** jaccard_similarity.go:27-31 JaccardSimilarityResult. *)
Record jaccard_result := mkJ { j_lower : Q; j_estimate : Q; j_upper : Q }.

(** common/utils.go:68-78 CeilingPowerOf2 (bits.Len32(x)-1 is [N.log2 x] for x > 0). *)
Definition ceiling_pow2 (n : N) : N :=
  if (n <=? 1)%N then 1%N
  else if (2 ^ 30 <=? n)%N then (2 ^ 30)%N
  else (2 ^ N.log2 (2 * (n - 1)))%N.

(** jaccard_similarity.go:159-169: the nominal size of the union; countA + countB is a uint32 sum. *)
Definition jaccard_lgk (countA countB : N) : N :=
  let lg := N.log2 (ceiling_pow2 ((countA + countB) mod 2 ^ 32)) in
  let lg := if (lg <? MinLgK)%N then MinLgK else lg in
  if (MaxLgK <? lg)%N then MaxLgK else lg.

(** A count as a float64 quotient. *)
Definition ratio (b a : N) : Q := Qmake (Z.of_N b) (match a with N0 => xH | Npos p => p end).

Section Bounds.
  (** [lb_k1 n theta], [lb_kn n theta], [lb_mid n k theta]: exactLowerBoundOnPKEq1, exactLowerBoundOnPKEqN and
      1 - abramowitzStegunFormula26p5p22(n-k+1, k, -numStdDevs) with numStdDevs = 2 * hackyAdjuster(theta as a fraction);
      likewise the upper ones. [f_is_one theta]: the fraction float64(theta)/float64(MaxTheta) rounds to 1. *)
  Variables (lb_k1 lb_kn ub_km1 ub_k0 : N -> N -> Q) (lb_mid ub_mid : N -> N -> N -> Q).
  Variable f_is_one : N -> bool.

  (** internal/binomialproportionsbounds/binomialproportionsbounds.go:65-82 ApproximateLowerBoundOnP. *)
  Definition approx_lower (n k theta : N) : option Q :=
    if (n <? k)%N then None
    else if (n =? 0)%N then Some 0%Q
    else if (k =? 0)%N then Some 0%Q
    else if (k =? 1)%N then Some (lb_k1 n theta)
    else if (k =? n)%N then Some (lb_kn n theta)
    else Some (lb_mid n k theta).

  (** internal/binomialproportionsbounds/binomialproportionsbounds.go:98-114 ApproximateUpperBoundOnP. *)
  Definition approx_upper (n k theta : N) : option Q :=
    if (n <? k)%N then None
    else if (n =? 0)%N then Some 1%Q
    else if (k =? n)%N then Some 1%Q
    else if (k =? n - 1)%N then Some (ub_km1 n theta)
    else if (k =? 0)%N then Some (ub_k0 n theta)
    else Some (ub_mid n k theta).

  (** bounds_on_ratios_in_sampled_sets.go:86-94 validateInputs; f = theta / MaxTheta (the comparisons with 0 and 1
      are on theta: a theta above MaxTheta whose quotient rounds to 1 is treated as invalid). *)
  Definition valid_sampled (a b theta : N) : bool :=
    negb (a <? b)%N && negb ((MaxTheta <? theta)%N || (theta =? 0)%N).

  (** bounds_on_ratios_in_sampled_sets.go:35-50 lowerBoundForBOverA. *)
  Definition lower_b_over_a (a b theta : N) : option Q :=
    if negb (valid_sampled a b theta) then None
    else if (a =? 0)%N then Some 0%Q
    else if f_is_one theta then Some (ratio b a)
    else approx_lower a b theta.

  (** :57-72 upperBoundForBOverA. *)
  Definition upper_b_over_a (a b theta : N) : option Q :=
    if negb (valid_sampled a b theta) then None
    else if (a =? 0)%N then Some 1%Q
    else if f_is_one theta then Some (ratio b a)
    else approx_upper a b theta.

  (** What the functions below read of a sketch: Theta64() and the hashes of All(). *)
  Definition hview : Type := (N * list N)%type.

  (** bounds_on_ratios_in_sketched_sets.go:115-123 countLessThanTheta64. *)
  Definition count_less (l : list N) (theta : N) : N := N.of_nat (length (filter (fun e => (e <? theta)%N) l)).

  (** :30-38, shared by the three functions: validateThetas, countA, countB. *)
  Definition sketched_counts (a b : hview) : option (N * N) :=
    if (fst a <? fst b)%N then None
    else Some (if (fst a =? fst b)%N then N.of_nat (length (snd a)) else count_less (snd a) (fst b),
               N.of_nat (length (snd b))).

  (** :26-52 lowerBoundForBOverAInSketchedSets. *)
  Definition lower_sketched (a b : hview) : option Q :=
    match sketched_counts a b with
    | None => None
    | Some (ca, cb) => if (ca =? 0)%N then Some 0%Q else lower_b_over_a ca cb (fst b)
    end.
  (** :85-104 estimateOfBOverAInSketchedSets. *)
  Definition estimate_sketched (a b : hview) : option Q :=
    match sketched_counts a b with
    | None => None
    | Some (ca, cb) => if (ca =? 0)%N then Some (1 # 2)%Q else Some (ratio cb ca)
    end.
  (** :56-82 upperBoundForBOverAInSketchedSets. *)
  Definition upper_sketched (a b : hview) : option Q :=
    match sketched_counts a b with
    | None => None
    | Some (ca, cb) => if (ca =? 0)%N then Some 1%Q else upper_b_over_a ca cb (fst b)
    end.

  (** jaccard_similarity.go:83-103: the three calls, in order. *)
  Definition three_bounds (unionAB interABU : hview) : option jaccard_result :=
    match lower_sketched unionAB interABU with
    | None => None
    | Some lb =>
      match estimate_sketched unionAB interABU with
      | None => None
      | Some est =>
        match upper_sketched unionAB interABU with
        | None => None
        | Some ub => Some (mkJ lb est ub)
        end
      end
    end.

  (** jaccard_similarity.go:189-194 identicalSets. *)
  Definition identical_sets (a b u : hview) : bool :=
    (length (snd u) =? length (snd a)) && (length (snd u) =? length (snd b)) &&
    (fst u =? fst a)%N && (fst u =? fst b)%N.

  Definition view_of (s : sketch) : hview := (sk_theta s, sk_entries s).

  (** ** theta *)

  (** jaccard_similarity.go:159-187 computeUnion. NewUnion's defaults: resize factor X8 (lg 3), p = 1. *)
  Definition compute_union (a b : sketch) (seed : N) : option sketch :=
    let lgK := jaccard_lgk (N.of_nat (length (sk_entries a))) (N.of_nat (length (sk_entries b))) in
    match union_update (new_union lgK 3 MaxTheta seed) a with
    | None => None
    | Some u1 =>
      match union_update u1 b with
      | None => None
      | Some u2 => union_result u2 false
      end
    end.

  (** :65-81 the intersection of a, b and their union. *)
  Definition compute_inter (a b u : sketch) (seed : N) : option sketch :=
    match inter_update (new_inter seed) a with
    | None => None
    | Some x1 =>
      match inter_update x1 b with
      | None => None
      | Some x2 =>
        match inter_update x2 u with
        | None => None
        | Some x3 => inter_result x3 false
        end
      end
    end.

  (** :47-104 Jaccard. [same]: the two interface values are the same pointer. [None]: an error. *)
  Definition jaccard (same : bool) (a b : sketch) (seed : N) : option jaccard_result :=
    if same then Some (mkJ 1 1 1)
    else if sk_empty a && sk_empty b then Some (mkJ 1 1 1)
    else if sk_empty a || sk_empty b then Some (mkJ 0 0 0)
    else
      match compute_union a b seed with
      | None => None
      | Some u =>
        if identical_sets (view_of a) (view_of b) (view_of u) then Some (mkJ 1 1 1)
        else
          match compute_inter a b u seed with
          | None => None
          | Some i => three_bounds (view_of u) (view_of i)
          end
      end.

  (** :108-127 IsExactlyEqual. *)
  Definition is_exactly_equal (same : bool) (a b : sketch) (seed : N) : option bool :=
    if same then Some true
    else if sk_empty a && sk_empty b then Some true
    else if sk_empty a || sk_empty b then Some false
    else
      match compute_union a b seed with
      | None => None
      | Some u => Some (identical_sets (view_of a) (view_of b) (view_of u))
      end.

  (** :135-141 IsSimilar, :151-157 IsDissimilar. *)
  Definition is_similar (same : bool) (a b : sketch) (threshold : Q) (seed : N) : option bool :=
    option_map (fun j => Qle_bool threshold (j_lower j)) (jaccard same a b seed).
  Definition is_dissimilar (same : bool) (a b : sketch) (threshold : Q) (seed : N) : option bool :=
    option_map (fun j => Qle_bool (j_upper j) threshold) (jaccard same a b seed).

  (** ** tuple: the same over sketches whose summaries are objects in a heap; the policy is applied in place. *)
  Section Tuple.
    Context {S : Type}.
    Variable ap : S -> S -> S.

    Definition tview_of (s : tsketch nat) : hview := (ts_theta s, map fst (ts_entries s)).

    (** tuple/jaccard_similarity.go:160-191 computeUnion. *)
    Definition hcompute_union (hp : list S) (a b : tsketch nat) (seed : N) : option (tsketch nat * list S) :=
      let lgK := jaccard_lgk (N.of_nat (length (ts_entries a))) (N.of_nat (length (ts_entries b))) in
      match hunion_update ap (new_tunion 0 lgK 3 MaxTheta seed) hp a with
      | None => None
      | Some (u1, hp1) =>
        match hunion_update ap u1 hp1 b with
        | None => None
        | Some (u2, hp2) =>
          match tunion_result u2 false with None => None | Some r => Some (r, hp2) end
        end
      end.

    (** tuple/jaccard_similarity.go:66-82. *)
    Definition hcompute_inter (hp : list S) (a b u : tsketch nat) (seed : N) : option (tsketch nat * list S) :=
      match hinter_update ap (new_tinter 0 seed) hp a with
      | None => None
      | Some (x1, hp1) =>
        match hinter_update ap x1 hp1 b with
        | None => None
        | Some (x2, hp2) =>
          match hinter_update ap x2 hp2 u with
          | None => None
          | Some (x3, hp3) => hinter_result x3 hp3 false
          end
        end
      end.

    (** tuple/jaccard_similarity.go:48-105 Jaccard, with the heap it leaves. *)
    Definition hjaccard (same : bool) (hp : list S) (a b : tsketch nat) (seed : N) : option (jaccard_result * list S) :=
      if same then Some (mkJ 1 1 1, hp)
      else if ts_empty a && ts_empty b then Some (mkJ 1 1 1, hp)
      else if ts_empty a || ts_empty b then Some (mkJ 0 0 0, hp)
      else
        match hcompute_union hp a b seed with
        | None => None
        | Some (u, hp1) =>
          if identical_sets (tview_of a) (tview_of b) (tview_of u) then Some (mkJ 1 1 1, hp1)
          else
            match hcompute_inter hp1 a b u seed with
            | None => None
            | Some (i, hp2) =>
              match three_bounds (tview_of u) (tview_of i) with None => None | Some j => Some (j, hp2) end
            end
        end.

    (** tuple/jaccard_similarity.go:109-128 IsExactlyEqual. *)
    Definition his_exactly_equal (same : bool) (hp : list S) (a b : tsketch nat) (seed : N) : option (bool * list S) :=
      if same then Some (true, hp)
      else if ts_empty a && ts_empty b then Some (true, hp)
      else if ts_empty a || ts_empty b then Some (false, hp)
      else
        match hcompute_union hp a b seed with
        | None => None
        | Some (u, hp1) => Some (identical_sets (tview_of a) (tview_of b) (tview_of u), hp1)
        end.
  End Tuple.
End Bounds.
